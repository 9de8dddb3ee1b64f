(** What a command line means, in words and values instead of buffers. *)
From Verif Require Import Lib Itoa_Model Cmd_Model.

(** The words of a line: maximal runs without spaces *)
Inductive split : list Z -> list (list Z) -> Prop :=
| split_nil : split [] []
| split_sp l ws : split l ws -> split (32 :: l) ws
| split_w x l ws : x <> [] -> ~ In 32 x -> (l = [] \/ exists l', l = 32 :: l') -> split l ws -> split (x ++ l) (x :: ws).
Definition trunc (x : list Z) : list Z := firstn 255 x.
Definition clean (x : list Z) : Prop := ~ In 0 x.

(** Values as seen by the rest of the kernel *)
Inductive aval := ABool (b : bool) | ANum (z : Z) | AStr (x : option (list Z)).
Definition init_path : list Z := [47; 105; 110; 105; 116; 114; 100; 47; 98; 105; 110; 47; 105; 110; 105; 116].
Definition str_of (s : ps) (p : ptr) : option (list Z) :=
  match p with PNull => None | PInit => Some init_path | PBuf o => Some (cstr (skipn (Z.to_nat o) (ab s))) end.
Definition value (s : ps) (i : nat) : aval :=
  match vars s i with VBool b => ABool b | VNum z => ANum z | VPtr p => AStr (str_of s p) end.
(** cmd_args up to the first NULL *)
Fixpoint strs (s : ps) (l : list ptr) : list (list Z) :=
  match l with [] => [] | p :: t => match str_of s p with None => [] | Some x => x :: strs s t end end.
Definition argv (s : ps) : list (list Z) := strs s (cargs s).
(** A variable of the type of its option; strings are NULL at first *)
Definition plain (v : val) : Prop := match v with VPtr p => p = PNull | _ => True end.
Definition plain_value (v : val) : aval := match v with VBool b => ABool b | VNum z => ANum z | VPtr _ => AStr None end.

(** A line of items, then "--" or "-cmd" and arguments *)
Definition sep (x : list Z) : Prop := x = [45; 45] \/ x = 45 :: w_cmd.
(** Not a value of a bool, not a separator, not an option *)
Definition unknown (tbl : list kopt) (x : list Z) : Prop :=
  ~ In x [w_0; w_1; w_true; w_false] /\ ~ sep x /\ forall k, In k tbl -> x <> 45 :: kname k /\ (kalias k <> [] -> x <> 45 :: kalias k).

(** Option words with their values *)
Definition bools (b : bool) : list (list Z) := if b then [w_1; w_true] else [w_0; w_false].
Inductive item :=
| Flag (i : nat) (alias : bool)
| SetBool (i : nat) (alias : bool) (b : bool) (x : list Z)
| SetNum (i : nat) (alias : bool) (z : Z) (x : list Z)
| SetWord (i : nat) (alias : bool) (x : list Z)
| Stray (x : list Z).
Definition given (tbl : list kopt) (i : nat) (alias : bool) (t : kty) (x : list Z) : Prop :=
  exists k, nth_error tbl i = Some k /\ ktype k = t /\ x = 45 :: (if alias then kalias k else kname k) /\ (alias = true -> kalias k <> []).
(** A number in the words of its type: decimal; 0x for unsigned ones *)
Definition number (w : Z) (t : kty) (x : list Z) (z : Z) : Prop :=
  match t with
  | KLong => exists e, strtol w true (x ++ [0]) 10 = Some (mk_p z NoErr e)
  | KULong => (exists e, strtol w false (x ++ [0]) 10 = Some (mk_p z NoErr e)) /\ firstn 2 x <> [48; 120] \/
              exists y e, x = 48 :: 120 :: y /\ strtol w false (y ++ [0]) 16 = Some (mk_p z NoErr e)
  | _ => False
  end.
Definition item_is (w : Z) (tbl : list kopt) (it : item) (ws : list (list Z)) : Prop :=
  match it with
  | Flag i al => exists n, given tbl i al KBool n /\ ws = [n]
  | SetBool i al b x => exists n, given tbl i al KBool n /\ In x (bools b) /\ ws = [n; x]
  | SetNum i al z x => exists n t, given tbl i al t n /\ number w t x z /\ ws = [n; x]
  | SetWord i al x => exists n, given tbl i al KWord n /\ ws = [n; x]
  | Stray x => unknown tbl x /\ ws = [x]
  end.
Definition effect (f : nat -> aval) (it : item) : nat -> aval :=
  match it with
  | Flag i _ => upd f i (ABool true)
  | SetBool i _ b _ => upd f i (ABool b)
  | SetNum i _ z _ => upd f i (ANum z)
  | SetWord i _ x => upd f i (AStr (Some x))
  | Stray _ => f
  end.
Definition cost (it : item) : Z := match it with SetWord _ _ x => zlen x + 1 | _ => 0 end.
Definition costs (l : list Z) : Z := fold_right Z.add 0 l.

(** Names as in the source: identifiers *)
Definition named (k : kopt) : Prop := kname k <> [] /\ kname k <> [45] /\ kalias k <> [45].
Definition size1 (x : list Z) : Z := zlen x + 1.
