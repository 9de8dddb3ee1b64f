(** What a FAT volume holds: a tree of files and directories, whatever clusters they are in. *)
From Verif Require Import Lib Fat_Model Fat_Spec Fatdir_Spec.

(** A file: its clusters' bytes.  A directory: its entries, with the first clusters blanked, and
    what the entries other than dot and dot dot stand for. *)
Inductive tree := File (data : list Z) | Dir (view : list (list Z)) (kids : list tree).

(** entries of a directory *)
Definition hid (r : list Z) : bool := Z.testbit (attr r) 3 || (znth 0 r 0 =? 229).
Definition dots (r : list Z) : Prop := sp_short r = [46] \/ sp_short r = [46; 46].
Definition dots_dec (r : list Z) : {dots r} + {~ dots r}.
Proof.
  unfold dots. destruct (list_eq_dec Z.eq_dec (sp_short r) [46]) as [E|E]; [left; auto|].
  destruct (list_eq_dec Z.eq_dec (sp_short r) [46; 46]) as [F|F]; [left; auto|].
  right. intros [G|G]; auto.
Defined.
Fixpoint kids_of (rs : list (list Z)) : list (list Z) :=
  match rs with
  | [] => []
  | r :: t => if hid r then kids_of t
              else if znth 0 r 0 =? 0 then []
              else if dots_dec r then kids_of t else r :: kids_of t
  end.
(** bytes 20, 21, 26, 27: the first cluster *)
Definition blank (r : list Z) : list Z :=
  firstn 20 r ++ [0; 0] ++ firstn 4 (skipn 22 r) ++ [0; 0] ++ skipn 28 r.
Fixpoint view_of (rs : list (list Z)) : list (list Z) :=
  match rs with
  | [] => []
  | r :: t => if hid r then r :: view_of t
              else if znth 0 r 0 =? 0 then r :: t
              else if dots_dec r then r :: view_of t else blank r :: view_of t
  end.

(** entries of a chain, of the root directory *)
Definition slots (v : vol) (l : list Z) : list Z :=
  flat_map (fun c => map (fun i => sp_cluster_off (vh v) c + 32 * Z.of_nat i)
                       (seq 0 (Z.to_nat (epc v)))) l.
Definition raw (v : vol) (e : Z) : list Z := bytes (vm v) e 32.
Definition root_slots (v : vol) (rl : list Z) : list Z :=
  if sp_width (vh v) =? 2 then map (fun i => rslot v (Z.of_nat i)) (seq 0 (Z.to_nat (epc v)))
  else slots v rl.

(** [rep v c t l]: at cluster [c] there is [t], in the clusters [l] *)
Inductive rep (v : vol) : Z -> bool -> tree -> list Z -> Prop :=
| rep_empty : rep v 0 false (File []) []
| rep_file c l : chain v c l -> rep v c false (File (content v l)) l
| rep_dir c l ts k : chain v c l -> reps v (kids_of (map (raw v) (slots v l))) ts k ->
    rep v c true (Dir (view_of (map (raw v) (slots v l))) ts) (l ++ k)
with reps (v : vol) : list (list Z) -> list tree -> list Z -> Prop :=
| reps_nil : reps v [] [] []
| reps_cons r rs t ts l k : rep v (r_cluster r) (r_dir r) t l -> reps v rs ts k ->
    reps v (r :: rs) (t :: ts) (l ++ k).
Scheme rep_ind2 := Induction for rep Sort Prop with reps_ind2 := Induction for reps Sort Prop.
Combined Scheme rep_reps_ind from rep_ind2, reps_ind2.

Fixpoint depth (t : tree) : nat :=
  match t with File _ => 1 | Dir _ ks => S (fold_right (fun t n => Nat.max (depth t) n) O ks) end.
Definition depths (ts : list tree) : nat := fold_right (fun t n => Nat.max (depth t) n) O ts.

(** the volume: entries of the root [rs], their trees, the clusters used by them *)
Record holds (v : vol) (rl : list Z) (rs : list (list Z)) (ts : list tree) (l : list Z) : Prop := {
  h_root : if sp_width (vh v) =? 2 then fatsz16 (vh v) <> 0 /\ rl = []
           else chain v (rootclus (vh v)) rl;
  h_rs : rs = map (raw v) (root_slots v rl);
  h_kids : reps v (kids_of rs) ts l;
  (** no cluster is used twice *)
  h_nodup : NoDup (rl ++ l);
  (** table entries 0 and 1, as the specification has them *)
  h_0 : sp_eoc (vh v) (fat_val v 0 0);
  h_1 : fat_val v 0 1 <> 0 }.

Definition free (v : vol) (c : Z) : Prop := fat_val v 0 c = 0.
(** the entries of the FAT16 root directory that fat_walk looks at are those of a root directory
    that is at least as big as a cluster *)
Definition root_fits (v : vol) : Prop :=
  sp_width (vh v) = 2 -> rslot v (epc v) <= sp_data_sector (vh v) * bps (vh v).
(** nothing else is in use *)
Definition all_used (v : vol) (l : list Z) : Prop :=
  forall c, valid (vh v) c -> ~ free v c -> In c l.
(** the clusters of the root directory come first (on FAT16 it has none) *)
Definition in_front (rl : list Z) : Prop := forall c x, In c rl -> 2 <= x < c -> In x rl.
