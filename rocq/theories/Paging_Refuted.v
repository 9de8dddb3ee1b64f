(* Histories of a machine with 16 page frames: 1 is the zero page, 2 the kernel's
   page directory, 12 a block of a file. *)
From Coq Require Import ZArith List Bool Lia.
From Verif Require Import Lib Paging_Model Paging_Spec.
Import ListNotations.
Open Scope Z_scope.

Definition c0 : cfg := Cfg 16 1.
Definition s0 : st :=
  St (fun f => if f =? 1 then KExt else if f =? 2 then KPd else if f =? 12 then KExt else KFree)
     (fun _ _ => None) (fun _ _ => None)
     (fun f => if f =? 1 then 1 else if f =? 12 then 1 else 0) (fun _ _ => 0).

(* the first free frame of 3 .. n - 1 *)
Definition al_to (n : Z) (s : st) : option Z :=
  find (fun f => match kd s f with KFree => true | _ => false end) 
    (filter (fun f => (3 <=? f) && (f <? n)) (idx 16)).

Definition run (l : list op) (s : st) : out st :=
  fold_left (fun r o => bnd s <- r; step c0 (al_to 16) s o) l (Ok s).

Definition after (l : list op) : st := match run l s0 with Ok s => s | _ => s0 end.

(* the decidable part of [allowed] *)
Definition is_kd (k k' : kind) : bool :=
  match k, k' with KFree, KFree | KPage, KPage | KExt, KExt | KPt, KPt | KPd, KPd => true | _, _ => false end.
Definition may (s : st) (o : op) : bool :=
  match o with
  | OMapNew pd v _ _ _ | OMapZero pd v _ | OWrite pd v _ _ =>
      is_kd (kd s pd) KPd && negb (pd =? 2) && (0 <=? v) && (v <? NPD * NPT)
  | OMapExt pd v f _ =>
      is_kd (kd s pd) KPd && negb (pd =? 2) && (0 <=? v) && (v <? NPD * NPT) &&
      is_kd (kd s f) KExt && negb (f =? 1)
  | OUnmap pd v fr perm =>
      is_kd (kd s pd) KPd && negb (pd =? 2) && (0 <=? v) && (v <? NPD * NPT) && fr && perm
  | OFork pd => is_kd (kd s pd) KPd &&
                match clone c0 (al_to 16) s pd with Ok (_, Some _) => true | _ => false end
  | OExit pd => is_kd (kd s pd) KPd && negb (pd =? 2)
  | OBlockNew => true
  | _ => false
  end.
Fixpoint mays (l : list op) (s : st) : bool :=
  match l with
  | [] => true
  | o :: l => may s o && match step c0 (al_to 16) s o with Ok s => mays l s | _ => false end
  end.

Lemma is_kd_eq k k' : is_kd k k' = true -> k = k'.
Proof. destruct k, k'; cbn; congruence. Qed.

Lemma al_to_ok n : al_ok c0 (al_to n).
Proof.
  intros s f H. apply find_some in H. destruct H as [I K]. split.
  - destruct (kd s f); congruence.
  - apply filter_In in I. destruct I as [I _]. unfold idx in I. apply in_map_iff in I.
    destruct I as (k & <- & I). apply in_seq in I. cbn [lim c0]. lia.
Qed.

Lemma may_allowed s o : may s o = true -> allowed c0 2 (al_to 16) s o.
Proof.
  unfold allowed, proc, user.
  destruct o; cbn [may]; rewrite ?andb_true_iff; try discriminate; try (intros; exact I);
    rewrite ?negb_true_iff, ?Z.leb_le, ?Z.ltb_lt, ?Z.eqb_neq.
  - intros (((A & B) & C) & D). apply is_kd_eq in A. auto.
  - intros (((A & B) & C) & D). apply is_kd_eq in A. auto.
  - intros (((((A & B) & C) & D) & E) & G). apply is_kd_eq in A, E. auto.
  - intros (((((A & B) & C) & D) & E) & G). apply is_kd_eq in A. auto 10.
  - intros (((A & B) & C) & D). apply is_kd_eq in A. auto.
  - intros (A & B). apply is_kd_eq in A. split; [exact A|]. intros s' E. rewrite E in B. discriminate.
  - intros (A & B). apply is_kd_eq in A. auto.
Qed.

Lemma init0 : init c0 2 s0.
Proof.
  constructor; try reflexivity.
  - intros f N. cbn [s0 kd]. destruct (f =? 1); [auto|]. destruct (Z.eqb_spec f 2); [contradiction|].
    destruct (f =? 12); auto.
  - intros f. cbn [s0 kd c0 lim]. destruct (Z.eqb_spec f 1); [lia|]. destruct (Z.eqb_spec f 2); [lia|].
    destruct (Z.eqb_spec f 12); [lia|]. congruence.
  - intros f. cbn [s0 kd rc]. destruct (Z.eqb_spec f 1); [reflexivity|].
    destruct (Z.eqb_spec f 2); [subst; reflexivity|]. destruct (Z.eqb_spec f 12); reflexivity.
Qed.

Lemma mays_runs : forall l s, mays l s = true -> exists s', run l s = Ok s' /\ runs c0 2 l s s'.
Proof.
  induction l as [|o l IH]; intros s M.
  - exists s. split; [reflexivity|constructor].
  - cbn [mays] in M. apply andb_true_iff in M. destruct M as [M1 M2]. apply may_allowed in M1.
    destruct (step c0 (al_to 16) s o) as [s1| | |] eqn:E; try discriminate.
    destruct (IH s1 M2) as (s' & E' & R). exists s'. split.
    + unfold run. cbn [fold_left bind]. rewrite E. exact E'.
    + econstructor; [apply al_to_ok|exact M1|exact E|exact R].
Qed.

Lemma mays_reach l : mays l s0 = true -> reach c0 2 (after l).
Proof.
  intros M. destruct (mays_runs l s0 M) as (s' & E & R). unfold after. rewrite E.
  exists s0, l. split; [apply init0|exact R].
Qed.

(* a program with two pages in two page tables *)
Definition h_two : list op := [OFork 2; OMapNew 3 5 true false true; OMapNew 3 1030 true false true].

(* it forks when there is memory for the page directory and for one of the two
   page tables of the child *)
Lemma r_fork_oom :
  exists s', reach c0 2 (after h_two) /\ proc 2 (after h_two) 3 /\
    see (after h_two) 3 5 0 = Some (true, None, 0) /\
    clone c0 (al_to 10) (after h_two) 3 = Ok (s', None) /\
    write c0 (al_to 16) s' 3 5 0 1 = Uaf /\ destroy c0 s' 3 = Uaf.
Proof.
  destruct (clone c0 (al_to 10) (after h_two) 3) as [[s' r]| | |] eqn:E; try (vm_compute in E; discriminate).
  exists s'. split; [apply mays_reach; vm_compute; reflexivity|].
  split; [split; [vm_compute; reflexivity|discriminate]|]. split; [vm_compute; reflexivity|].
  assert (N : match clone c0 (al_to 10) (after h_two) 3 with
              | Ok (s', r) => r = None /\ write c0 (al_to 16) s' 3 5 0 1 = Uaf /\ destroy c0 s' 3 = Uaf
              | _ => False end) by (vm_compute; auto).
  rewrite E in N. destruct N as (-> & W & D). auto.
Qed.

(* frame 20 is the framebuffer's, beyond the end of RAM *)
Definition h_fb : list op := [OFork 2].

Lemma r_framebuffer :
  exists s', reach c0 2 (after h_fb) /\ proc 2 (after h_fb) 3 /\
    map_ext c0 (al_to 16) (after h_fb) 3 7 20 true = Ok (s', 0) /\
    clone c0 (al_to 16) s' 3 = Afail /\
    unmap c0 s' 3 7 true true = Bfree /\ destroy c0 s' 3 = Bfree /\
    exists s'', unmap c0 s' 3 7 false true = Ok (s'', 0).
Proof.
  assert (N : match map_ext c0 (al_to 16) (after h_fb) 3 7 20 true with
              | Ok (s', r) => r = 0 /\ clone c0 (al_to 16) s' 3 = Afail /\
                  unmap c0 s' 3 7 true true = Bfree /\ destroy c0 s' 3 = Bfree /\
                  match unmap c0 s' 3 7 false true with Ok (_, r) => r = 0 | _ => False end
              | _ => False end) by (vm_compute; auto 10).
  destruct (map_ext c0 (al_to 16) (after h_fb) 3 7 20 true) as [[s' r]| | |] eqn:E; try contradiction.
  destruct N as (-> & A & B & C & D). exists s'.
  split; [apply mays_reach; vm_compute; reflexivity|].
  split; [split; [vm_compute; reflexivity|discriminate]|]. split; [reflexivity|].
  split; [exact A|]. split; [exact B|]. split; [exact C|].
  destruct (unmap c0 s' 3 7 false true) as [[s'' r]| | |]; try contradiction. subst r. eauto.
Qed.
