(** What a user expects of the reader of a command line: independent of the code. *)
From Verif Require Import Common.

(** characters are numbers; 45 is the character '-' *)
Definition dash : nat := 45.
Definition str := list nat.
Inductive item := Short (v : str) | Long (v : str) | Text (v : str).

(** the items of a whole command line: "--name" is a long switch, "-abc" is three
    short switches, everything else is a text *)
Definition itemsOf (a : str) : list item :=
  match a with
  | x :: y :: r =>
      if x =? dash then (if y =? dash then [Long r] else map (fun c => Short [c]) (y :: r))
      else [Text a]
  | _ => [Text a]
  end.
Definition items (args : list str) : list item := flat_map itemsOf args.

(** reading it step by step: what remains is the argument of which some switches
    were already read (the whole argument and the characters not read yet, at least
    one), and the arguments not touched yet *)
Record pos := mkPos { part : option (str * str); rest : list str }.
Inductive op := Next | Peek | NextText | PeekText | Remain | Has.
Inductive res := RItem (i : item) | RText (s : str) | RArgs (l : list str) | RBool (b : bool).

Definition after (a r : str) (l : list str) : pos := mkPos (match r with [] => None | _ => Some (a, r) end) l.
(** the next item and the position after it; None: nothing is left *)
Definition next (p : pos) : option (item * pos) :=
  match p with
  | mkPos (Some (a, c :: r)) l => Some (Short [c], after a r l)
  | mkPos (Some (_, [])) _ => None
  | mkPos None [] => None
  | mkPos None (a :: l) =>
      match a with
      | x :: y :: r =>
          if x =? dash then (if y =? dash then Some (Long r, mkPos None l) else Some (Short [y], after a r l))
          else Some (Text a, mkPos None l)
      | _ => Some (Text a, mkPos None l)
      end
  end.
(** the rest of the argument as a text: the value of a switch like -ofile *)
Definition text (p : pos) : option (str * pos) :=
  match p with
  | mkPos (Some (_, r)) l => Some (r, mkPos None l)
  | mkPos None [] => None
  | mkPos None (a :: l) => Some (a, mkPos None l)
  end.
(** the arguments that were not read completely *)
Definition remain (p : pos) : list str := match part p with Some (a, _) => a :: rest p | None => rest p end.

(** one call: its result and the position after it; the call throws when nothing is left *)
Definition call (o : op) (p : pos) : outcome (res * pos) :=
  match o with
  | Next => match next p with Some (i, p') => Ok (RItem i, p') | None => Throw end
  | Peek => match next p with Some (i, _) => Ok (RItem i, p) | None => Throw end
  | NextText => match text p with Some (s, p') => Ok (RText s, p') | None => Throw end
  | PeekText => match text p with Some (s, _) => Ok (RText s, p) | None => Throw end
  | Remain => Ok (RArgs (remain p), p)
  | Has => Ok (RBool (match remain p with [] => false | _ => true end), p)
  end.
Fixpoint calls (l : list op) (p : pos) : outcome (list res) :=
  match l with
  | [] => Ok []
  | o :: l' => let! (r, p') := call o p in let! rs := calls l' p' in Ok (r :: rs)
  end.
(** the calls that move on *)
Definition consumes (o : op) : bool := match o with Next | NextText => true | _ => false end.
