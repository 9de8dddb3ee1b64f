(** C80: the accelerator of kmalloc. *)
From Coq Require Import Permutation.
From Verif Require Import Lib Acc_Model Acc_Spec Acc_Proofs.

(** All histories and all answers of the heap: every element of every block taken was given to the caller, or freed, or is still inside, each exactly once; the loop of destroy ends. *)
Theorem C80_account : forall size count, 0 < size -> 0 < count -> size * count < 2 ^ 32 -> forall ops, exists a o,
  run size count ops (create count) = Some (a, o) /\ 0 <= cur a <= count /\
  Permutation (flat_map (cells size count) (took o)) (gave o ++ freed o ++ cells_from size count (cur a) (buf a)).
Proof. exact account. Qed.
Print Assumptions C80_account.

(** After a destroy nothing is inside. *)
Theorem C80_no_leak : forall size count, 0 < size -> 0 < count -> size * count < 2 ^ 32 -> forall ops, exists a o,
  run size count (ops ++ [Destroy]) (create count) = Some (a, o) /\
  Permutation (flat_map (cells size count) (took o)) (gave o ++ freed o).
Proof. exact no_leak. Qed.
Print Assumptions C80_no_leak.

(** With blocks that do not overlap the elements given and freed do not overlap, and each lies in a block. *)
Theorem C80_apart : forall size count, 0 < size -> 0 < count -> size * count < 2 ^ 32 -> forall ops a o,
  run size count ops (create count) = Some (a, o) -> apart (size * count) (took o) ->
  apart size (gave o ++ freed o) /\
  Forall (fun p => exists b, In b (took o) /\ b <= p /\ p + size <= b + size * count) (gave o ++ freed o).
Proof. exact elements_apart. Qed.
Print Assumptions C80_apart.

(** No block is taken before the last one is used up. *)
Theorem C80_economy : forall size count, 0 < size -> 0 < count -> size * count < 2 ^ 32 -> forall xs a o,
  run size count (map Get xs) (create count) = Some (a, o) ->
  freed o = [] /\ zlen (gave o) <= count * zlen (took o) < zlen (gave o) + count.
Proof. exact economy. Qed.
Print Assumptions C80_economy.

(** A failed call gives NULL and the next one asks again. *)
Theorem C80_failure : forall size count a, cur a = count -> forall a' o, get size count None a = (a', o) -> o = [Null] /\ cur a' = count.
Proof. exact failed_get. Qed.
Print Assumptions C80_failure.

(** pdir_deep_clone: pages, four at a time; a failure; five elements; the rest given back *)
Example C80_nonvacuous : option_map snd (run 4096 4 [Get None; Get (Some 65536); Get None; Get None; Get None; Get (Some 131072); Destroy; Destroy] (create 4)) =
  Some [Null; Took 65536; Gave 65536; Gave 69632; Gave 73728; Gave 77824; Took 131072; Gave 131072; Freed 135168; Freed 139264; Freed 143360] /\
  apart (4096 * 4) [65536; 131072].
Proof. vm_compute. repeat constructor; discriminate. Qed.

