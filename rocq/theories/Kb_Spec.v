(** A PS/2 keyboard (scancode set 1): what happens to its keys, the bytes it sends, and what the
    handlers should be told, from the history of the keys alone. *)
From Verif Require Import Lib Kb_Model.

Inductive phys :=
| Key (ext : bool) (k : Z) (p : bool)     (** pressed or held, or released *)
| Fake (p : bool)                         (** shift put around extended keys by the keyboard *)
| Pause (a b : Z).
Definition good (e : phys) : Prop :=
  match e with
  | Key ext k p => 0 <= k < 128 /\ (if ext then k <> 42 else p = false -> k <> 96 /\ k <> 97)
  | _ => True
  end.
Definition code (e : phys) : list Z :=
  match e with
  | Key ext k p => (if ext then [224] else []) ++ [if p then k else k + 128]
  | Fake p => [224; if p then 42 else 170]
  | Pause a b => [225; a; b]
  end.

(** before the history: which keys were down and the two locks *)
Record base := Base { bdown : bool -> Z -> bool; bnum : bool; bcaps : bool }.
Definition up_base : base := Base (fun _ _ => false) false false.
Section Spec.
Variable layout : bool -> Z -> Z.
Variable numkey : Z -> Z.
Variable toupper : Z -> Z.
Variable b : base.
(** latest event first *)
Fixpoint down (h : list phys) (ext : bool) (k : Z) : bool :=
  match h with
  | [] => bdown b ext k
  | Key e j p :: h => if Bool.eqb ext e && (k =? j) then p else down h ext k
  | _ :: h => down h ext k
  end.
(** a lock changes with every press of its key *)
Fixpoint lock (start : bool) (key : Z) (h : list phys) : bool :=
  match h with
  | [] => start
  | Key false k true :: h => if k =? key then negb (lock start key h) else lock start key h
  | _ :: h => lock start key h
  end.
Definition char_of (h : list phys) (ext : bool) (k : Z) : Z :=
  if ext then (if k =? 28 then 13 else if k =? 53 then 47 else 0)
  else
    let c := layout (down h false 42 || down h false 54) k in
    let c := if lock (bnum b) 69 h then Z.lor c (numkey k) else c in
    if lock (bcaps b) 58 h then toupper c else c.
Definition told (h : list phys) (e : phys) : list kout :=
  match e with
  | Key ext k p =>
      if p && negb ext && ((k =? 69) || (k =? 58)) then []
      else [Ev (if ext then 57344 + k else k) (char_of h ext k) p]
  | _ => []
  end.
(** Del pressed while left Ctrl and left Alt are down *)
Definition is_reset (h : list phys) (e : phys) : bool :=
  match e with Key true k true => (k =? 83) && down h false 29 && down h false 56 | _ => false end.
Fixpoint expect (h : list phys) (evs : list phys) : list kout :=
  match evs with
  | [] => []
  | e :: evs => if is_reset (e :: h) e then [Reboot] else told (e :: h) e ++ expect (e :: h) evs
  end.
(** the decoder between two keys knows the history *)
Record knows (s : kb) (h : list phys) : Prop := Knows {
  k_alive : dead s = false;
  k_state : kstate s = KDef;
  k_down : forall e k, prs s e k = down h e k;
  k_num : num s = lock (bnum b) 69 h;
  k_caps : caps s = lock (bcaps b) 58 h }.
End Spec.
Definition base_of (s : kb) : base := Base (prs s) (num s) (caps s).
(** a sequence ESC [ digits end, or ESC [ end *)
Definition csi (ds : list Z) (e : Z) : list Z := 27 :: 91 :: ds ++ [e].
