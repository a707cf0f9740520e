(** File paths, independent of the code.  A text is a list of character codes. *)
From Coq Require Import ZArith Bool List.
Import ListNotations.
Local Open Scope Z_scope.

(** the pieces of a text between the separators *)
Fixpoint pieces (sep : Z) (t : list Z) : list (list Z) :=
  match t with
  | [] => [[]]
  | c :: r =>
      if c =? sep then [] :: pieces sep r
      else match pieces sep r with p :: ps => (c :: p) :: ps | [] => [[c]] end
  end.
Definition dot : list Z := [46].
Definition dots : list Z := [46; 46].
(** one step of the way through the directories, and the place a path leads to (from the root) *)
Definition walk (at_ : list (list Z)) (p : list Z) : list (list Z) :=
  if list_eq_dec Z.eq_dec p [] then at_
  else if list_eq_dec Z.eq_dec p dot then at_
  else if list_eq_dec Z.eq_dec p dots then removelast at_
  else at_ ++ [p].
Definition place (sep : Z) (t : list Z) : list (list Z) := fold_left walk (pieces sep t) [].

(** The expressions a user writes: a path, followed by names, by [parent] and by [nil]. *)
Inductive expr (path : Type) :=
| Base (f : path)
| Name (e : expr path) (h : list Z)
| Parent (e : expr path)
| Folder (e : expr path).
Arguments Base {path}. Arguments Name {path}. Arguments Parent {path}. Arguments Folder {path}.

Definition absolute (sep : Z) (h : list Z) : bool := match h with c :: _ => c =? sep | [] => false end.
(** The place an expression means; [dir] gives the directory of a path.  A relative name leads
    on from there, an absolute one leads from the root, [parent] leads one directory up. *)
Section Where.
Context {path : Type} (sep : Z) (dir : path -> list Z).
Fixpoint whereTo (e : expr path) : list (list Z) :=
  match e with
  | Base f => place sep (dir f)
  | Name e h => if absolute sep h then place sep h else fold_left walk (pieces sep h) (whereTo e)
  | Parent e => removelast (whereTo e)
  | Folder e => whereTo e
  end.
(** the text of an expression without [parent] *)
Fixpoint joined (e : expr path) : option (list Z) :=
  match e with
  | Base f => Some (dir f)
  | Name e h => if absolute sep h then Some h else match joined e with Some t => Some (t ++ sep :: h) | None => None end
  | Parent _ => None
  | Folder e => joined e
  end.
End Where.
(** real names: not empty, not a dot, not two dots *)
Definition good (p : list Z) : Prop := p <> [] /\ p <> dot /\ p <> dots.
Definition cleanRel (sep : Z) (h : list Z) : Prop := Forall good (pieces sep h).
Definition cleanAbs (sep : Z) (h : list Z) : Prop := exists t, h = sep :: t /\ cleanRel sep t.
Fixpoint names {path} (P : list Z -> Prop) (e : expr path) : Prop :=
  match e with Base _ => True | Name e h => P h /\ names P e | Parent e => names P e | Folder e => names P e end.
Fixpoint base {path} (e : expr path) : path := match e with Base f => f | Name e _ | Parent e | Folder e => base e end.

(** the text before and behind the last separator *)
Definition lastSep (sep : Z) (t before behind : list Z) : Prop := t = before ++ sep :: behind /\ ~ In sep behind.
Definition endsWithDots (t : list Z) : Prop := exists y, t = y ++ dots.
(** title and extension of a file name *)
Definition titleExt (n title ext : list Z) : Prop := (~ In 46 n /\ title = n /\ ext = []) \/ lastSep 46 n title ext.
(** the directory above *)
Definition upOf (sep : Z) (d u : list Z) : Prop := (~ In sep d /\ u = []) \/ exists y, lastSep sep d u y.

(** expressions that stand for a directory *)
Definition directory {path} (e : expr path) : Prop := match e with Parent _ | Folder _ => True | _ => False end.
