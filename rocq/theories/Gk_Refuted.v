(** A concrete allocator: one main heap of 512 KB; concrete histories. *)
From Verif Require Import Lib Bits Buddy_Model Buddy_Spec Gk_Model Gk_Spec.

Definition m0 : hp :=
  match kmalloc (heap_init 32 (2 ^ 19) 2048) 512 false 0 true with
  | Some (h, _) => Hp 204800 false 0 h
  | None => Hp 0 false 0 (heap_init 32 (2 ^ 19) 2048)
  end.
Definition s0 : st := St [m0] [] [] 0.
(** [ops], from [s], at most one empty small heap kept: state and results *)
Fixpoint run (s : st) (ops : list gop) : option (st * list (option (Z * Z))) :=
  match ops with
  | [] => Some (s, [])
  | o :: t => match gstep 32 1 s o with Some (s, r) => match run s t with Some (s, rs) => Some (s, r :: rs) | None => None end | None => None end
  end.
(** What can be seen of a state *)
Definition obs (x : option (st * list (option (Z * Z)))) :=
  match x with
  | Some (s, rs) => Some (map (fun x => mem (bh x)) (mains s), map (fun x => (base x, node x, mem (bh x))) (smalls s), avail s, empties s, rs)
  | None => None
  end.

Lemma start_s0 : start 32 s0.
Proof.
  split; [left; reflexivity|]. split; [|split; [repeat constructor|repeat split]].
  constructor; [|constructor]. exists 8%nat, (bh m0), 2048. split; [unfold good; cbn; lia|].
  split; [vm_compute; reflexivity|]. split; [exists 100; vm_compute; reflexivity|]. split; vm_compute; reflexivity.
Qed.

(** kmalloc(&size) says 2048 for a request of 1500; freeing with that size asserts *)
Lemma gk_written_back : exists s cl p b, history 32 1 s cl /\ In (p, 1500) cl /\ gstep 32 1 s0 (KMalloc 1500) = Some (s, Some (p, b)) /\
  gstep 32 1 s (KFree p b) = None /\ gstep 32 1 s (KFree p 0) <> None /\ gstep 32 1 s (KFree p 1500) <> None.
Proof.
  destruct (gstep 32 1 s0 (KMalloc 1500)) as [[s r]|] eqn:E; [|vm_compute in E; discriminate].
  assert (R : option_map snd (gstep 32 1 s0 (KMalloc 1500)) = Some (Some (239616, 2048))) by (vm_compute; reflexivity).
  rewrite E in R. injection R as ->. exists s, [(239616, 1500)], 239616, 2048.
  split; [apply (h_step 32 1 s0 [] (KMalloc 1500) s (Some (239616, 2048))); [apply h_start, start_s0|cbn; lia|exact E]|].
  split; [left; reflexivity|]. split; [reflexivity|].
  assert (X : forall u, gstep 32 1 s (KFree 239616 u) = match gstep 32 1 s0 (KMalloc 1500) with Some (s, _) => gstep 32 1 s (KFree 239616 u) | None => None end) by (intros; rewrite E; reflexivity).
  assert (Y : forall u, match gstep 32 1 s (KFree 239616 u) with Some _ => true | None => false end = match gstep 32 1 s0 (KMalloc 1500) with Some (s, _) => match gstep 32 1 s (KFree 239616 u) with Some _ => true | None => false end | None => false end) by (intros; rewrite E; reflexivity).
  split.
  - assert (Z : match gstep 32 1 s (KFree 239616 2048) with Some _ => true | None => false end = false) by (rewrite Y; vm_compute; reflexivity).
    destruct (gstep 32 1 s (KFree 239616 2048)); [discriminate|reflexivity].
  - split; intros N.
    + assert (Z : match gstep 32 1 s (KFree 239616 0) with Some _ => true | None => false end = true) by (rewrite Y; vm_compute; reflexivity). rewrite N in Z. discriminate.
    + assert (Z : match gstep 32 1 s (KFree 239616 1500) with Some _ => true | None => false end = true) by (rewrite Y; vm_compute; reflexivity). rewrite N in Z. discriminate.
Qed.
