From Verif Require Import Lib User_Model.

(** A configuration: 4 or 8 bytes, user space ends at a page boundary below the end *)
Definition good_cfg (c : cfg) : Prop :=
  (word c = 4 \/ word c = 8) /\ 4096 <= base c /\ base c + 4096 <= modulus c /\ base c mod 4096 = 0.
(** Memory is mapped by pages; its contents are bytes *)
Definition paged (rd : mem) : Prop := forall a b, a / 4096 = b / 4096 -> rd a = None -> rd b = None.

(** [l] are the bytes at [p], [p]+1, ...; [run]: and none is 0 *)
Fixpoint bytes_at (rd : mem) (p : Z) (l : list Z) : Prop :=
  match l with [] => True | b :: l => rd p = Some b /\ bytes_at rd (p + 1) l end.
Fixpoint run (rd : mem) (p : Z) (l : list Z) : Prop :=
  match l with [] => True | b :: l => rd p = Some b /\ b <> 0 /\ run rd (p + 1) l end.
(** the string at [p], in user space, without its terminator *)
Definition is_str (c : cfg) (rd : mem) (p : Z) (l : list Z) : Prop :=
  run rd p l /\ rd (p + zlen l) = Some 0 /\ p + zlen l < base c.

(** A range read while copying the string at [p]: in user space, in one page, and no
    terminator before it *)
Definition good_range (c : cfg) (rd : mem) (p : Z) (r : Z * Z) : Prop :=
  let '(a, k) := r in
  p <= a /\ 1 <= k /\ a + k <= base c /\ a / 4096 = (a + k - 1) / 4096 /\ exists l, run rd p l /\ p + zlen l = a.

(** What copy_str_from_user has to return *)
Definition str_result (c : cfg) (rd : mem) (p max rc : Z) (dest : list Z) (w : Z) : Prop :=
  (rc = 0 /\ exists l rest, is_str c rd p l /\ zlen l < max /\ dest = l ++ 0 :: rest /\ w = zlen l + 1) \/
  (rc = 1 /\ w = 0 /\ exists l, run rd p l /\ zlen l = max /\ p + max <= Z.max p (base c)) \/
  (rc = -1 /\ w = 0 /\ exists l, run rd p l /\ zlen l < max /\ (base c <= p + zlen l \/ rd (p + zlen l) = None)).

(** A NULL-terminated array of strings at [arr]; the pointer at index [i] *)
Definition ptr_at (c : cfg) (rd : mem) (a u : Z) : Prop :=
  exists l, zlen l = word c /\ bytes_at rd a l /\ u = le l /\ a + word c <= base c.
Fixpoint strings_at (c : cfg) (rd : mem) (arr : Z) (strs : list (list Z)) : Prop :=
  match strs with
  | [] => ptr_at c rd arr 0
  | l :: strs => (exists u, u <> 0 /\ ptr_at c rd arr u /\ is_str c rd u l) /\ strings_at c rd (arr + word c) strs
  end.
(** A NULL-terminated array of pointers *)
Fixpoint ptrs_at (c : cfg) (rd : mem) (arr : Z) (us : list Z) : Prop :=
  match us with [] => ptr_at c rd arr 0 | u :: us => u <> 0 /\ ptr_at c rd arr u /\ ptrs_at c rd (arr + word c) us end.
(** Its length does not make the address of its end in the copy at [dest] wrap around *)
Definition short_array (c : cfg) (rd : mem) (dest arr : Z) : Prop :=
  forall us, ptrs_at c rd arr us -> dest + word c * zlen us < modulus c.
Definition flat (strs : list (list Z)) : list Z := concat (map (fun l => l ++ [0]) strs).
(** the offsets at which the strings are stored *)
Fixpoint offsets (off : Z) (strs : list (list Z)) : list Z :=
  match strs with [] => [] | l :: strs => off :: offsets (off + zlen l + 1) strs end.
(** A memory given by a list of segments, everything else unmapped *)
Fixpoint segs (l : list (Z * list Z)) (a : Z) : option Z :=
  match l with
  | [] => None
  | (p, d) :: l => if (p <=? a) && (a <? p + zlen d) then nth_error d (Z.to_nat (a - p)) else segs l a
  end.
