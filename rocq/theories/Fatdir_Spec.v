(** Directories as the FAT specification writes them: a list of items, each one or more 32-byte
    entries. *)
From Verif Require Import Lib Fat_Model Fat_Spec Fatdir_Model.

Inductive item :=
| Short (r : list Z)                   (** live, no long name *)
| Long (name r : list Z)               (** live, with a long name *)
| Skip (r : list Z)                    (** volume label or deleted entry *)
| Junk (k : Z) (rs : list (list Z)).   (** long-name entries of a deleted entry, checksum [k] *)

(** checksum of the 11 bytes of a short name *)
Fixpoint sp_sum (acc : Z) (l : list Z) : Z :=
  match l with [] => acc | c :: r => sp_sum ((acc / 2 + 128 * (acc mod 2) + c) mod 256) r end.
Definition short_sum (r : list Z) : Z := sp_sum 0 (firstn 11 r).

(** long-name entries: 13 UTF-16 units each, the last part of the name first *)
Definition units (part : list Z) : list (Z * Z) :=
  map (fun c => (c, 0)) part ++
  (if (length part <? 13)%nat then (0, 0) :: repeat (255, 255) (12 - length part) else []).
Definition flat (l : list (Z * Z)) : list Z := flat_map (fun p => [fst p; snd p]) l.
Definition lfn_raw (ord k : Z) (part : list Z) : list Z :=
  [ord] ++ flat (firstn 5 (units part)) ++ [15; 0; k] ++
  flat (firstn 6 (skipn 5 (units part))) ++ [0; 0] ++ flat (skipn 11 (units part)).
Definition part (i : nat) (name : list Z) : list Z := firstn 13 (skipn (13 * i) name).
Definition parts (name : list Z) : nat := ((length name + 12) / 13)%nat.
Definition ord (name : list Z) (i : nat) : Z :=
  Z.of_nat (S i) + (if (S i =? parts name)%nat then 64 else 0).
Definition lfn_set (name : list Z) (k : Z) : list (list Z) :=
  map (fun i => lfn_raw (ord name i) k (part i name)) (rev (seq 0 (parts name))).
Definition enc (x : item) : list (list Z) :=
  match x with
  | Short r => [r]
  | Long name r => lfn_set name (short_sum r) ++ [r]
  | Skip r => [r]
  | Junk _ rs => rs
  end.

(** * Well-formed *)
Definition attr (r : list Z) : Z := znth 0 r 11.
Definition live (r : list Z) : Prop :=
  zlen r = 32 /\ znth 0 r 0 <> 0 /\ znth 0 r 0 <> 229 /\ Z.testbit (attr r) 3 = false.
(** ASCII, without the characters the code does not accept *)
Definition char_ok (c : Z) : Prop :=
  35 <= c <= 126 /\ ~ In c [42; 47; 58; 60; 62; 63; 92; 124].
Definition name_ok (n : list Z) : Prop := 1 <= zlen n <= 255 /\ Forall char_ok n.
Definition skipped (r : list Z) : Prop :=
  zlen r = 32 /\ attr r mod 16 <> 15 /\ (Z.testbit (attr r) 3 = true \/ znth 0 r 0 = 229).
Definition junk_ok (k : Z) (r : list Z) : Prop :=
  zlen r = 32 /\ attr r mod 16 = 15 /\ znth 0 r 13 = k.
(** [p]: the checksum of the last leftover long name; the next entry must not have it *)
Fixpoint ok (p : option Z) (l : list item) : Prop :=
  match l with
  | [] => True
  | Short r :: t => live r /\ p <> Some (short_sum r) /\ ok None t
  | Long n r :: t => live r /\ name_ok n /\ p <> Some (short_sum r) /\ ok None t
  | Skip r :: t => skipped r /\ ok p t
  | Junk k rs :: t => Forall (junk_ok k) rs /\ (1 <= length rs <= 19)%nat /\ 0 <= k /\
                      p <> Some k /\ ok (Some k) t
  end.
Definition raws (l : list item) : list (list Z) := flat_map enc l.

(** * In the image: [slot i] is where the i-th of the [n] entries is *)
Record dir_at (v : vol) (slot : Z -> Z) (n : Z) (l : list item) : Prop := {
  d_ok : ok None l;
  d_fit : zlen (raws l) <= n;
  d_raw : forall i, 0 <= i < zlen (raws l) -> bytes (vm v) (slot i) 32 = znth [] (raws l) i;
  (** what follows starts with a free entry *)
  d_end : zlen (raws l) < n ->
          vm v (slot (zlen (raws l))) = 0 /\
          Z.testbit (vm v (slot (zlen (raws l)) + 11)) 3 = false }.
(** entries of a chain of clusters *)
Definition epc (v : vol) : Z := csize v / 32.
Definition cslot (v : vol) (cl : list Z) (i : Z) : Z :=
  sp_cluster_off (vh v) (znth 0 cl (i / epc v)) + 32 * (i mod epc v).
(** entries of the FAT16 root directory *)
Definition rslot (v : vol) (i : Z) : Z :=
  (rsvd (vh v) + nfats (vh v) * FATSz (vh v)) * bps (vh v) + 32 * i.
(** a directory given by the number of its first cluster, 0 for the root directory; of a FAT16
    root directory fat_walk looks at as many entries as fit a cluster *)
Definition dir_of (v : vol) (clu : Z) (slot : Z -> Z) (l : list item) : Prop :=
  if (clu =? 0) && (sp_width (vh v) =? 2) then
    fatsz16 (vh v) <> 0 /\ slot = rslot v /\ dir_at v slot (epc v) l
  else
    exists cl, chain v (if clu =? 0 then rootclus (vh v) else clu) cl /\
      slot = cslot v cl /\ dir_at v slot (zlen cl * epc v) l.

(** * What there is to see: place, long name, entry *)
Fixpoint listing (slot : Z -> Z) (i : Z) (l : list item) : list (Z * option (list Z) * list Z) :=
  match l with
  | [] => []
  | Short r :: t => (slot i, None, r) :: listing slot (i + 1) t
  | Long n r :: t =>
      (slot (i + Z.of_nat (parts n)), Some n, r) :: listing slot (i + Z.of_nat (parts n) + 1) t
  | Skip _ :: t => listing slot (i + 1) t
  | Junk _ rs :: t => listing slot (i + zlen rs) t
  end.
(** a callback applied along the listing *)
Fixpoint visit {S} (cb : S -> vol -> Z -> option (list Z) -> res (S * vol * bool))
    (s : S) (v : vol) (l : list (Z * option (list Z) * list Z)) : res S :=
  match l with
  | [] => Ok s
  | (e, n, _) :: t => bnd (s1, _, stop) <- cb s v e n; if stop then Ok s1 else visit cb s1 v t
  end.

(** * Names *)
(** the 8.3 name of an entry *)
Fixpoint before (c : Z) (l : list Z) : list Z :=
  match l with [] => [] | x :: r => if x =? c then [] else x :: before c r end.
Definition low (c : Z) : Z := if (65 <=? c) && (c <=? 90) then c + 32 else c.
Definition sp_short (r : list Z) : list Z :=
  let base := before 32 (firstn 8 r) in
  let ext := before 32 (firstn 3 (skipn 8 r)) in
  let nt := znth 0 r 12 in
  before 0
   ((if Z.testbit nt 3 then map low base else base) ++
    (match ext with [] => [] | _ => 46 :: (if Z.testbit nt 4 then map low ext else ext) end)).
Definition sp_name (x : Z * option (list Z) * list Z) : list Z :=
  match x with (_, Some n, _) => n | (_, None, r) => sp_short r end.
(** does an entry answer to the name [c]?  Long names: exactly; short ones: in any case *)
Definition answers (c : list Z) (x : Z * option (list Z) * list Z) : Prop :=
  match x with
  | (_, Some n, _) => n = c
  | (_, None, r) => map low (sp_short r) = map low c
  end.
Definition r_dir (r : list Z) : bool := Z.testbit (attr r) 4.
Definition r_cluster (r : list Z) : Z :=
  znth 0 r 26 + 256 * znth 0 r 27 + 65536 * znth 0 r 20 + 16777216 * znth 0 r 21.
(** the first entry that answers *)
Inductive first_match (c : list Z) : list (Z * option (list Z) * list Z) -> 
    option (Z * option (list Z) * list Z) -> Prop :=
| fm_nil : first_match c [] None
| fm_hit x t : answers c x -> first_match c (x :: t) (Some x)
| fm_miss x t r : ~ answers c x -> first_match c t r -> first_match c (x :: t) r.
(** the first component of a path *)
Definition first_comp (path : list Z) : list Z := before 47 path.
Definition after (path : list Z) : list Z := skipn (length (first_comp path)) path.
(** looking a path up from the directory [clu]: a component at a time *)
Inductive lookup (v : vol) : Z -> list Z -> found -> Prop :=
| lk_none clu p slot l : dir_of v clu slot l ->
    first_match (first_comp p) (listing slot 0 l) None -> lookup v clu p NoEnt
| lk_last clu p slot l e n r : dir_of v clu slot l ->
    first_match (first_comp p) (listing slot 0 l) (Some (e, n, r)) -> after p = [] ->
    lookup v clu p (Found e)
| lk_slash clu p slot l e n r : dir_of v clu slot l ->
    first_match (first_comp p) (listing slot 0 l) (Some (e, n, r)) -> after p = [47] ->
    lookup v clu p (if r_dir r then Found e else NotDir)
| lk_down clu p slot l e n r q x : dir_of v clu slot l ->
    first_match (first_comp p) (listing slot 0 l) (Some (e, n, r)) -> after p = 47 :: q -> q <> [] ->
    r_dir r = true -> r_cluster r <> 0 -> lookup v (r_cluster r) q x -> lookup v clu p x
| lk_file clu p slot l e n r q : dir_of v clu slot l ->
    first_match (first_comp p) (listing slot 0 l) (Some (e, n, r)) -> after p = 47 :: q -> q <> [] ->
    r_dir r = false -> lookup v clu p NotDir.
(** the same answer up to the kind of error *)
Definition agree (x y : found) : Prop :=
  match x, y with
  | Found a, Found b => a = b
  | Found _, _ | _, Found _ => False
  | _, _ => True
  end.
(** every component of the path fits the buffer *)
Definition comps_ok (path : list Z) : Prop :=
  forall a b, path = a ++ b -> zlen (first_comp b) < 256.
