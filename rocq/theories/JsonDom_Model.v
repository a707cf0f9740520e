(** Model of the JSON object interface, of equality of values and of paths
    (src/lightspeed/utils/json/json.cpp, jsonimpl.h, json.h). *)
From Verif Require Import Common Json_Spec Json_Model JsonDom_Spec.
Local Open Scope N_scope.

(** ** Object *)

(** Object, jsonimpl.h:21-88, with the AVL tree as the list of its fields in order (the tree is
    the subject of Avl_Model) and the counter of AvlTreeBasic, avltreenode.h:533-602 *)
Record obj := { fields : list (list N * json); count : N }.
Definition newObj : obj := {| fields := []; count := 0 |}.

(** AvlTreeBasic::find, avltreenode.h:551-556, on the names *)
Fixpoint lookup (k : list N) (m : list (list N * json)) : option json :=
  match m with
  | [] => None
  | (k', v) :: t => match compareKeys k k' with Eq => Some v | _ => lookup k t end
  end.
(** AvlTreeBasic::remove, avltreenode.h:562-567 *)
Fixpoint removeField (k : list N) (m : list (list N * json)) : list (list N * json) :=
  match m with
  | [] => []
  | (k', v) :: t => match compareKeys k k' with Eq => t | _ => (k', v) :: removeField k t end
  end.
(** the assignment to the field found in Object::replace, json.cpp:110 *)
Fixpoint assignField (k : list N) (v : json) (m : list (list N * json)) : list (list N * json) :=
  match m with
  | [] => []
  | (k', v') :: t => match compareKeys k k' with Eq => (k', v) :: t | _ => (k', v') :: assignField k v t end
  end.
(** insertField, json.cpp:45-52, with AvlTreeBasic::insert, avltreenode.h:543-549 *)
Definition insert (k : list N) (v : json) (o : obj) : obj :=
  match lookup k (fields o) with
  | Some _ => o
  | None => {| fields := insertField k v (fields o); count := count o + 1 |}
  end.
(** erase, json.cpp:160-167 *)
Definition erase (k : list N) (o : obj) : obj :=
  match lookup k (fields o) with
  | Some _ => {| fields := removeField k (fields o); count := count o - 1 |}
  | None => o
  end.
(** add, json.cpp:68-73; the check for a cycle does not apply to trees *)
Definition add (k : list N) (v : option json) (o : obj) : obj :=
  match v with None => erase k o | Some v => insert k v o end.
(** replace, json.cpp:97-114 *)
Definition replace (k : list N) (v : option json) (o : obj) : obj * option json :=
  match lookup k (fields o) with
  | None => (add k v o, None)
  | Some prev =>
      (match v with
       | None => erase k o
       | Some v => {| fields := assignField k v (fields o); count := count o |}
       end, Some prev)
  end.
(** clear, json.cpp:120-123, with AvlTreeBasic::clear, avltreenode.h:582-587, which leaves the
    counter alone *)
Definition clear (o : obj) : obj := {| fields := []; count := count o |}.
(** getVariable, json.cpp:26-32; length, json.cpp:54-56; enumEntries, json.cpp:35-43 (an
    iterator reserves [length] items and keeps those written, stringBase.h:290-316) *)
Definition oexec (op : oop) (o : obj) : obj * oans :=
  match op with
  | OAdd k v => (add k v o, ADone)
  | OReplace k v => let (o', p) := replace k v o in (o', AValue p)
  | OErase k => (erase k o, ADone)
  | OClear => (clear o, ADone)
  | OGet k => (o, AValue (lookup k (fields o)))
  | OLength => (o, ANumber (count o))
  | OList => (o, AMembers (fields o))
  end.
Fixpoint orun (ops : list oop) (o : obj) : obj * list oans :=
  match ops with
  | [] => (o, [])
  | op :: ops => let (o1, a) := oexec op o in let (o2, l) := orun ops o1 in (o2, a :: l)
  end.

(** add without a name, json.cpp:59-66: the pattern "unnamed%l" has no parameter number, so that
    its expansion, textFormat.tcc:289-325, is "unnamedl" whatever the number of members *)
Definition unnamed : list N := [117; 110; 110; 97; 109; 101; 100; 108].
Definition addUnnamed (v : option json) (o : obj) : obj :=
  match v with None => o | Some _ => add unnamed v o end.

(** ** Equality *)

(** the nodes, jsonimpl.h:21-351, with the address of each; [KEmpty] and [KZero] are EmptyString
    and ZeroNumber, the shared nodes made for "" and 0 by newValue, json.cpp:635-716.  The
    number of a floating point node only identifies it. *)
Inductive node := Node (addr : N) (kind : nkind)
with nkind :=
| KNull
| KBool (b : bool)
| KZero
| KInt (z : Z)
| KFloat (x : N)
| KEmpty
| KStr (s : list N)
| KArr (l : list node)
| KObj (m : list (list N * node)).
Definition naddr (n : node) : N := let (a, _) := n in a.
Definition nkind_of (n : node) : nkind := let (_, k) := n in k.

(** getBool, jsonimpl.h:28, 103, 162, 184, 201, 255, 297, 319, 341; floating point nodes are
    not zero *)
Fixpoint getBool (n : node) : bool :=
  match n with Node _ k =>
    match k with
    | KNull | KZero | KEmpty => false
    | KBool b => b
    | KInt z => negb (z =? 0)%Z
    | KFloat _ | KStr _ | KObj _ => true
    | KArr [] => false
    | KArr (x :: _) => getBool x
    end
  end.
Section Eq.
  (** whether TextFieldA::getFloat, json.cpp:350-354, is zero; the text parser is not modelled *)
  Variable textZero : list N -> bool.
  (** getFloat() == 0, jsonimpl.h:27, 102, 183, 200, 254, 296, 318, 340 *)
  Fixpoint floatZero (n : node) : bool :=
    match n with Node _ k =>
      match k with
      | KNull | KZero | KEmpty | KObj _ => true
      | KBool b => negb b
      | KInt z => (z =? 0)%Z
      | KFloat _ => false
      | KStr s => textZero s
      | KArr [] => true
      | KArr (x :: _) => floatZero x
      end
    end.
  (** operator==: Object json.cpp:84-95 (members are compared by [Value != Value], which compares
      addresses, pointer.h:138-140 and compare.h:67-69), Array 216-227, TextFieldA 332-335, IntField
      376-380, FloatField 398-402, Null 409-413, Bool 420-424, EmptyString 723-725, ZeroNumber
      733-736 *)
  Fixpoint eqNode (a b : node) {struct a} : bool :=
    match a with Node _ k =>
      match k with
      | KNull => match nkind_of b with KNull => true | _ => false end
      | KBool x => match nkind_of b with KBool y => Bool.eqb x y | _ => false end
      | KZero => match nkind_of b with KZero => true | KInt z => (z =? 0)%Z | _ => floatZero b end
      | KInt x => match nkind_of b with KInt y => (x =? y)%Z | _ => false end
      | KFloat x => match nkind_of b with KFloat y => x =? y | _ => false end
      | KEmpty => negb (getBool b)
      | KStr s => match nkind_of b with
                  | KStr t => if list_eq_dec N.eq_dec s t then true else false
                  | KEmpty => match s with [] => true | _ => false end
                  | _ => false
                  end
      | KArr l =>
          match nkind_of b with
          | KArr l' =>
              Nat.eqb (length l) (length l') &&
              (fix go (l l' : list node) : bool :=
                 match l, l' with
                 | x :: l, y :: l' => eqNode x y && go l l'
                 | _, _ => true
                 end) l l'
          | _ => false
          end
      | KObj m =>
          match nkind_of b with
          | KObj m' =>
              Nat.eqb (length m) (length m') &&
              (fix go (m : list (list N * node)) (m' : list (list N * node)) : bool :=
                 match m, m' with
                 | (k, x) :: m, (k', y) :: m' =>
                     (if list_eq_dec N.eq_dec k k' then true else false) && (naddr x =? naddr y) && go m m'
                 | _, _ => true
                 end) m m'
          | _ => false
          end
      end
    end.
End Eq.
(** clone, json.cpp:75-82, 207-214, 328-330, 368-370, 394-396, 404-407, 416-418, 719-721, 729-731:
    the constants are shared nodes, everything else is made anew; [next] is an address not used
    so far *)
Fixpoint clone (next : N) (n : node) {struct n} : node * N :=
  match n with Node a k =>
    match k with
    | KNull | KBool _ | KZero | KEmpty => (n, next)
    | KInt _ | KFloat _ | KStr _ => (Node next k, next + 1)
    | KArr l =>
        let (l', next') :=
          (fix go (next : N) (l : list node) : list node * N :=
             match l with
             | [] => ([], next)
             | x :: l => let (x', n1) := clone next x in let (l', n2) := go n1 l in (x' :: l', n2)
             end) (next + 1) l in
        (Node next (KArr l'), next')
    | KObj m =>
        let (m', next') :=
          (fix go (next : N) (m : list (list N * node)) : list (list N * node) * N :=
             match m with
             | [] => ([], next)
             | (k, x) :: m => let (x', n1) := clone next x in let (m', n2) := go n1 m in ((k, x') :: m', n2)
             end) (next + 1) m in
        (Node next (KObj m'), next')
    end
  end.

(** ** Paths *)

(** Path, json.h:1039-1140; the first field of [PItem] is the parent, the second the text
    [keyName] points to, or nothing for a null pointer *)
Inductive path := PRoot | PItem (parent : path) (keyName : option (list N)) (index : N).
(** Path(parent, key), json.h:1051; [None] is the empty string without characters, ConstStrA() *)
Definition pathKey (parent : path) (key : option (list N)) : path :=
  PItem parent key (match key with Some k => N.of_nat (length k) | None => 0 end).
(** Path(parent, index), json.h:1058 *)
Definition pathIndex (parent : path) (index : N) : path := PItem parent None index.

(** getVariable: Object json.cpp:26-32, Array jsonimpl.h:105, leaves jsondefs.h:60 *)
Fixpoint getVariable (k : list N) (v : json) : option json :=
  match v with
  | JObj m => lookup k m
  | JArr [] => None
  | JArr (x :: _) => getVariable k x
  | _ => None
  end.
(** getEntry: Object jsonimpl.h:32, Array 107 (no check), leaves jsondefs.h:62 *)
Definition getEntry (i : N) (v : json) : outcome (option json) :=
  match v with
  | JObj _ => Ok None
  | JArr l => match nth_error l (N.to_nat i) with Some w => Ok (Some w) | None => Undef end
  | _ => Ok (if 0 <? i then None else Some v)
  end.
(** getEntryCount: jsonimpl.h:31, 106, jsondefs.h:61 *)
Definition entryCount (v : json) : N :=
  match v with JObj m => N.of_nat (length m) | JArr l => N.of_nat (length l) | _ => 0 end.
(** operator[](natural) of Value, json.cpp:598-604, and of ConstValue, json.cpp:765-767 *)
Definition valueAt (i : N) (v : json) : outcome (option json) :=
  if entryCount v <=? i then Throw else getEntry i v.
Definition constValueAt (i : N) (v : json) : outcome (option json) := getEntry i v.
(** Path::operator(), json.cpp:1047-1064, with the indexing operator [at_] *)
Fixpoint resolve (at_ : N -> json -> outcome (option json)) (p : path) (root : json) : outcome (option json) :=
  match p with
  | PRoot => Ok (Some root)
  | PItem parent key index =>
      let! v := resolve at_ parent root in
      match v with
      | None => Ok None
      | Some v => match key with None => at_ index v | Some k => Ok (getVariable k v) end
      end
  end.

(** compare, json.cpp:1158-1180; getKey, json.h:1065 *)
Fixpoint comparePath (a b : path) : comparison :=
  match a, b with
  | PRoot, PRoot => Eq
  | PRoot, PItem _ _ _ => Lt
  | PItem _ _ _, PRoot => Gt
  | PItem pa ka ia, PItem pb kb ib =>
      match comparePath pa pb with
      | Eq =>
          match ka, kb with
          | None, None => N.compare ia ib
          | None, Some _ => Lt
          | Some k, Some k' => compareKeys k k'
          | Some _, None => Gt
          end
      | z => z
      end
  end.

(** copy, json.cpp:1070-1097, and copyRecurse 1099-1122.  [ptr] and [cell] are the sizes of a
    pointer and of a Path. *)
Section Copy.
  Variable ptr cell : N.
  (** the loop that computes the size, json.cpp:1077-1084 *)
  Fixpoint sizeLoop (p : path) (req len : N) : N * N :=
    match p with
    | PRoot => (req, len)
    | PItem parent key index =>
        sizeLoop parent (req + cell + match key with Some _ => index | None => 0 end) (len + 1)
    end.
  (** a path in memory; keys are addresses and lengths *)
  Inductive cpath := CRoot | CItem (addr : N) (parent : cpath) (key : option N) (index : N).
  (** what is written *)
  Inductive write := WPointer (addr : N) | WCell (addr : N) | WText (addr : N) (text : list N).
  Fixpoint copyRecurse (trg str : N) (p : path) : cpath * list write :=
    match p with
    | PRoot => (CRoot, [])
    | PItem parent (Some k) index =>
        let (out, w) := copyRecurse (trg + cell) (str + index) parent in
        (CItem trg out (Some str) index, WText str k :: w ++ [WCell trg])
    | PItem parent None index =>
        let (out, w) := copyRecurse (trg + cell) str parent in
        (CItem trg out None index, w ++ [WCell trg])
    end.
  (** the memory asked for, the copy made in memory at [base], and all writes to it *)
  Definition copyPath (base : N) (p : path) : N * cpath * list write :=
    match p with
    | PRoot => (0, CRoot, [])
    | _ =>
        let (req, len) := sizeLoop p ptr 0 in
        let start := base + ptr in
        let (out, w) := copyRecurse start (start + cell * len) p in
        (req, out, WPointer base :: w)
    end.
  (** the loop of operator delete, json.cpp:1141-1146: the condition looks at the pointer that
      was passed in, [p] goes to the root and stays there (json.cpp:1045).  [req] is a 64 bit
      number. *)
  Fixpoint deleteLoop (fuel : nat) (isroot : bool) (p : path) (req : N) : outcome N :=
    match fuel with
    | O => NoFuel
    | S f =>
        if isroot then Ok req
        else match p with
             | PRoot => deleteLoop f isroot PRoot ((req + cell + 6) mod 2 ^ 64)
             | PItem parent key index =>
                 deleteLoop f isroot parent ((req + cell + match key with Some _ => index | None => 0 end) mod 2 ^ 64)
             end
    end.
  (** operator delete, json.cpp:1124-1150: the size handed to the allocator *)
  Definition deletePath (fuel : nat) (p : path) : outcome N :=
    match p with
    | PRoot => Ok 0
    | _ => deleteLoop fuel false p ptr
    end.
End Copy.
