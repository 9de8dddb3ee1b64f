(** What a heap is for its clients: a list of live blocks (offset, size). *)
From Verif Require Import Lib Bits Buddy_Model.

Definition block : Type := (Z * Z)%type.
Definition inside (b r : block) : bool := (fst r <=? fst b) && (fst b + snd b <=? fst r + snd r).
Definition disjoint (b r : block) : Prop := fst b + snd b <= fst r \/ fst r + snd r <= fst b.

(** [n] consecutive blocks of size [leaf] from [off] *)
Fixpoint chunks (n : nat) (off leaf : Z) : list block :=
  match n with O => [] | S m => (off, leaf) :: chunks m (off + leaf) leaf end.

(** The binary digits of [tot] below [2^bits], biggest first, laid out from [off] *)
Fixpoint pieces (bits : nat) (off tot : Z) : list block :=
  match bits with
  | O => []
  | S i => if Z.testbit tot (Z.of_nat i) then (off, 2 ^ Z.of_nat i) :: pieces i (off + 2 ^ Z.of_nat i) tot
           else pieces i off tot
  end.

Inductive op :=
| Alloc (size : Z) (multi : bool) (leaf : Z) (act : bool)
| Free (off usize : Z) (multi allow_split : bool).

(** Result of an operation: the address and the size written back *)
Definition step (h : heap) (o : op) : option (heap * option block) :=
  match o with
  | Alloc size multi leaf act => kmalloc h size multi leaf act
  | Free off usize multi sp => match kfree h off usize multi sp with Some (h', s) => Some (h', Some (off, s)) | None => None end
  end.

(** A heap of 2^(a+K) bytes with blocks of at least 2^a bytes *)
Record cfg := mk_cfg { cW : Z; ca : Z; cK : nat }.
Definition good (c : cfg) : Prop :=
  (cW c = 32 \/ cW c = 64) /\ 0 <= ca c /\ Z.of_nat (cK c) <= 30 /\ ca c + Z.of_nat (cK c) <= cW c - 1.
Definition total (c : cfg) : Z := 2 ^ (ca c + Z.of_nat (cK c)).
Definition minimum (c : cfg) : Z := 2 ^ ca c.
Definition bits (c : cfg) : nat := Z.to_nat (ca c + Z.of_nat (cK c) + 1).

(** Blocks handed out: one, or one per binary digit, or sub-blocks of size [leaf] *)
Definition handed_out (c : cfg) (r : block) (leaf : Z) : list block :=
  if leaf =? 0 then pieces (bits c) (fst r) (snd r) else chunks (Z.to_nat (snd r / leaf)) (fst r) leaf.

(** The ranges a free operates on *)
Definition freed (c : cfg) (r : block) (multi : bool) : list block :=
  if multi then pieces (bits c) (fst r) (snd r) else [r].
Definition drop (live : list block) (r : block) : list block := filter (fun b => negb (inside b r)) live.

Definition live_after (c : cfg) (live : list block) (o : op) (res : option block) : list block :=
  match o, res with
  | Alloc _ _ leaf _, Some r => handed_out c r leaf ++ live
  | Free _ _ multi _, Some r => fold_left drop (freed c r multi) live
  | _, None => live
  end.

(** A range that may be freed with KFREE_FL_ALLOW_SPLIT: an aligned power of two
    smaller than the heap, that holds live blocks and cuts none *)
Definition freeable (c : cfg) (live : list block) (r : block) : Prop :=
  (exists j, ca c <= j < ca c + Z.of_nat (cK c) /\ snd r = 2 ^ j) /\
  0 <= fst r /\ fst r + snd r <= total c /\ (snd r | fst r) /\
  (exists b, In b live /\ inside b r = true) /\
  (forall b, In b live -> inside b r = true \/ disjoint b r).

(** Correct use.  A block as big as the heap is never freed. *)
Definition allowed (c : cfg) (live : list block) (o : op) : Prop :=
  match o with
  | Alloc size multi leaf act =>
      0 < size /\
      (leaf = 0 \/ exists j, ca c <= j /\ leaf = 2 ^ j /\
         (if multi then (leaf | size) else leaf <= Z.max (2 ^ Z.log2_up size) (minimum c))) /\
      (multi = true -> (minimum c | size))
  | Free off usize false false =>
      exists b, In (off, b) live /\ b <> total c /\
        (usize = 0 \/ 0 < usize <= b /\ 2 ^ Z.log2_up (Z.max usize (minimum c)) = b)
  | Free off usize false true =>
      0 < usize <= total c /\ freeable c live (off, 2 ^ Z.log2_up (Z.max usize (minimum c)))
  | Free off usize true sp =>
      0 < usize < total c /\ (minimum c | usize) /\
      Forall (fun r => freeable c live r /\ (sp = false -> In r live)) (pieces (bits c) off usize)
  end.

(** Accounting is exact when the memory is actually allocated and a range freed
    with ALLOW_SPLIT is one block or consists of minimum-size blocks *)
Definition exact_op (c : cfg) (live : list block) (o : op) : Prop :=
  match o with
  | Alloc _ _ _ act => act = true
  | Free off usize multi sp =>
      sp = true ->
      Forall (fun r => In r live \/ forall b, In b live -> inside b r = true -> snd b = minimum c)
        (if multi then pieces (bits c) off usize else [(off, 2 ^ Z.log2_up (Z.max usize (minimum c)))])
  end.

(** Every heap reachable by any history of correct operations, with its live
    blocks; [acct]: all of them exact *)
Inductive reach (c : cfg) (acct : bool) : heap -> list block -> Prop :=
| reach_init : reach c acct (heap_init (cW c) (total c) (minimum c)) []
| reach_step : forall h live o h' res,
    reach c acct h live -> allowed c live o -> (acct = true -> exact_op c live o) ->
    step h o = Some (h', res) -> reach c acct h' (live_after c live o res).

Definition sum_sizes (live : list block) : Z := fold_right (fun b s => snd b + s) 0 live.

(** The block a request is served with, and: every aligned range of that size
    meets a live block *)
Definition block_of (c : cfg) (size : Z) : Z := Z.max (2 ^ Z.log2_up size) (minimum c).
Definition crowded (c : cfg) (live : list block) (r : Z) : Prop :=
  forall off, 0 <= off -> off + r <= total c -> (r | off) -> exists b, In b live /\ ~ disjoint b (off, r).
