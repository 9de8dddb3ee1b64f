(** Proofs: kfree of small blocks. *)
From Coq Require Import Permutation.
From Verif Require Import Lib Bits Buddy_Model Buddy_Spec Buddy_Proofs Gk_Model Gk_Spec Gk_Proofs Gk_Proofs2 Gk_Proofs3 Gk_Proofs4 Gk_Proofs5 Gk_Proofs6.
From Coq Require Import ssreflect.

Lemma only_md l : (forall y, In y l -> 32 <= snd y) -> In (0, SMD) l -> sum_sizes l = SMD -> l = [(0, SMD)].
Proof.
  move => H I E. have [l1 [l2 El]] := in_split _ _ I. subst l.
  have P : Permutation (l1 ++ (0, SMD) :: l2) ((0, SMD) :: l1 ++ l2) by apply: Permutation_sym; apply: Permutation_middle.
  rewrite (sum_perm _ _ P) in E. cbn in E. change (fold_right _ 0 (l1 ++ l2)) with (sum_sizes (l1 ++ l2)) in E.
  have Z : l1 ++ l2 = [].
  { case El : (l1 ++ l2) => [//|y t]. exfalso. have Iy : In y (l1 ++ l2) by rewrite El; left.
    have := sum_in (l1 ++ l2) y. have := H y ltac:(move/in_app_iff: Iy => [?|?]; apply in_app_iff; [by left|by right; right]).
    move => A B. have := B ltac:(by move => w Hw; have := H w ltac:(move/in_app_iff: Hw => [?|?]; apply in_app_iff; [by left|by right; right]); lia) Iy. lia. }
  by move/app_eq_nil: Z => [-> ->].
Qed.
Lemma small_drop W g1 g g2 rest : smallok W (g1 ++ g :: g2) rest -> gl g = [(0, SMD)] -> smallok W (g1 ++ g2) rest.
Proof.
  move => [Hw O C M D P] E. move/fmid: O => [_ O]. move/fmid: C => [_ C]. move/fmid: M => [_ M]. constructor => //.
  - rewrite map_mid in D. have Q : Permutation (map chunk g1 ++ chunk g :: map chunk g2) (chunk g :: map chunk g1 ++ map chunk g2) by apply: Permutation_sym; apply: Permutation_middle.
    have := fop_perm _ _ Q D. rewrite map_app => X. by inversion X.
  - apply: (Permutation_cons_inv (a := smd g)). have A : absl g = [smd g] by rewrite /absl E /= /sh /smd /= Z.add_0_r.
    apply: (Permutation_trans (l' := all (g1 ++ g :: g2))). { apply: Permutation_sym. apply: Permutation_trans; first apply: all_mid. by rewrite A. }
    rewrite P map_mid map_app. change (smd g :: (map smd g1 ++ map smd g2) ++ rest) with ((smd g :: map smd g1 ++ map smd g2) ++ rest).
    apply: Permutation_app_tail. apply: Permutation_sym. apply: Permutation_middle.
Qed.
Lemma drop_hp g1 g g2 : NoDup (map gb (g1 ++ g :: g2)) -> filter (fun y => negb (base y =? gb g)) (map gx (g1 ++ g :: g2)) = map gx (g1 ++ g2).
Proof.
  move => N. rewrite map_mid in N. have := NoDup_remove_2 _ _ _ N. rewrite in_app_iff => NI.
  have X : forall t, ~ In (gb g) (map gb t) -> filter (fun y => negb (base y =? gb g)) (map gx t) = map gx t.
  { elim => [//|z t IH] H. cbn in *. have -> : (base (gx z) =? gb g) = false by (apply Z.eqb_neq => E; apply: H; left). cbn. f_equal. apply: IH. tauto. }
  rewrite map_mid filter_app /= {2}/gb Z.eqb_refl /= !X; try tauto. by rewrite map_app.
Qed.

Lemma free_small W me s cl gm gs p q u : Inv W me s cl gm gs -> In (p, q) cl -> q <= SMAX -> u = 0 \/ u = q ->
  exists s' gm' gs', gen_free me s p u = Some s' /\ map shape gm' = map shape gm /\ Inv W me s' (filter (fun x => negb (fst x =? p)) cl) gm' gs'.
Proof.
  move => I Ip L U. have N := inv_nd _ _ _ _ _ _ I. have P := cl_drop _ _ _ N Ip. move: (I) => [Im Is Imain Ismall Icl Iav Ie Ime].
  have Q0 : 0 < q by move/Forall_forall: Icl => X; apply: (X _ Ip).
  have Icl' : Forall (fun x => 0 < snd x) (filter (fun x : Z * Z => negb (fst x =? p)) cl) by apply: incl_Forall Icl => x /filter_In [].
  set cl' := filter _ cl in P Icl' *. have Pb := filter_cl big _ _ _ _ P. have Ps := filter_cl small _ _ _ _ P.
  have Bq : big (p, q) = false by (rewrite /big; cbn; lia). rewrite /small Bq in Ps. cbn [negb] in Ps. rewrite Bq in Pb. rewrite -/small in Ps.
  have Pm := Permutation_map blk Ps. cbn [map] in Pm. rewrite {2}/blk in Pm. cbn [fst snd] in Pm.
  have Pr : Permutation (map blk (filter big cl) ++ map chunk gs ++ map nod gs) (map blk (filter big cl') ++ map chunk gs ++ map nod gs).
  { apply: Permutation_app_tail. by apply: Permutation_map. }
  have Imain' := mainok_perm _ _ _ _ Imain Pr. have Ismall' := small_perm _ _ _ _ Ismall Pm.
  have Ia : In (p, reserved q) (all gs). { apply: Permutation_in; first (apply: Permutation_sym; apply Ismall'). apply in_app_iff. right. by left. }
  have [g [Ig [Ib [[R1 R2] _]]]] := all_in gs p (reserved q) (s_ok _ _ _ Ismall) Ia.
  have Rq := reserved_small q W ltac:(lia). move: Rq => [_ [Rq2 Rq3]].
  have Pos : 0 < gb g. { have := main_in _ _ _ Imain (chunk g) ltac:(apply in_app_iff; right; apply in_app_iff; right; apply in_app_iff; left; by apply: in_map). by case. }
  have [g1 [g2 Es]] := split_in _ _ Ig. subst gs. have [Mg [Hg [Hm [Sg [Cg Og]]]]] := mem_upd _ _ _ _ _ Ismall.
  rewrite Cg total_csm in R2. have ND := small_nodup _ _ _ Ismall.
  have Fp : List.find (fun x => contains x p) (smalls s) = Some (gx g) by rewrite -Is; apply: (find_p _ _ _ _ _ Ismall Ig); rewrite /gb; lia.
  case: (one_free (gc g) (bh (gx g)) (gl g) (p - base (gx g)) (reserved q) u Og Ib).
  { rewrite Cg total_csm /SSIZE. lia. }
  { case: U => ->; [by left|right]. have := reserved_ge q Q0. rewrite Cg. split => //. }
  move => h [l' [Ek [Oh Pl]]].
  have Bp : gb g + (p - base (gx g)) = p by rewrite /gb; lia.
  have Pm' : Permutation (map blk (filter small cl)) ((gb g + (p - base (gx g)), reserved q) :: map blk (filter small cl')) by rewrite Bp.
  have Stk := small_take _ _ _ _ _ _ _ _ _ _ Ismall Pm' Pl Oh. set g' := upd g h l' in Stk.
  have [Mg' [Hg' [_ [Sg' _]]]] := mem_upd _ _ _ _ _ Stk. cbn [g' upd gx bh set_h] in Mg', Hg'. change (gl g') with l' in Mg', Sg'.
  have Sl : sum_sizes (gl g) = reserved q + sum_sizes l' by rewrite (sum_perm _ _ Pl).
  have Si : set_in (smalls s) (base (gx g)) h = map gx (g1 ++ g' :: g2) by rewrite -Is; apply: set_in_ok.
  have Main : forall s', small_free me s p u = Some (Some s') -> gen_free me s p u = Some s'.
  { move => s' E. rewrite /gen_free E. have -> : (p =? 0) = false by (rewrite /gb in Pos; lia). case: U => ->; first by []. have -> : negb (q =? 0) = true by lia. by have -> : (q <=? SMAX) = true by lia. }
  have Esf : small_free me s p u = if mem (bh (gx g)) =? hsize (bh (gx g))
          then if mem h <=? SMD then None else Some (Some (St (mains s) (map gx (g1 ++ g' :: g2)) (avail s ++ [base (gx g)]) (empties s)))
          else if mem h =? SMD
          then if empties s <? me then Some (Some (Gk_Model.St (mains s) (map gx (g1 ++ g' :: g2)) (avail s) (empties s + 1)))
               else match destroy (Gk_Model.St (mains s) (map gx (g1 ++ g' :: g2)) (avail s) (empties s)) (gx g) with Some s => Some (Some s) | None => None end
          else Some (Some (Gk_Model.St (mains s) (map gx (g1 ++ g' :: g2)) (avail s) (empties s))) by rewrite /small_free Fp Ek Si.
  rewrite Mg Hg Mg' in Esf.
  have Ch : map chunk (g1 ++ g' :: g2) = map chunk (g1 ++ g :: g2) by rewrite !map_mid.
  have No : map nod (g1 ++ g' :: g2) = map nod (g1 ++ g :: g2) by rewrite !map_mid.
  have Ng : isempty g = false by (rewrite /isempty; apply Z.eqb_neq; lia).
  rewrite e_mid Ng in Ie.
  destruct (Z.eqb_spec (sum_sizes (gl g)) SSIZE) as [Ef|Ef].
  - have X : (sum_sizes l' <=? SMD) = false by (apply Z.leb_gt; rewrite /SMD; rewrite /SSIZE in Ef; lia). rewrite X in Esf.
    eexists; exists gm, (g1 ++ g' :: g2). split; first by apply: Main Esf. split => //. constructor => //.
    + by rewrite Ch No.
    + apply: (av_back g1 g g2) => //; first by rewrite /notfull Ef Z.eqb_refl. rewrite /notfull. apply/negb_true_iff. apply Z.eqb_neq. change (gl g') with l'. lia.
    + cbn [empties]. rewrite e_mid. have -> : isempty g' = false by (rewrite /isempty; apply Z.eqb_neq; change (gl g') with l'; lia). done.
  - have Nf : notfull g = true by (rewrite /notfull; apply/negb_true_iff; apply Z.eqb_neq).
    have Nf' : notfull g' = true by (rewrite /notfull; apply/negb_true_iff; apply Z.eqb_neq; change (gl g') with l'; lia).
    have Av := av_put g1 g g2 g' (avail s) ND (eq_refl _) Nf Iav. rewrite Nf' in Av.
    destruct (Z.eqb_spec (sum_sizes l') SMD) as [Ee|Ee]; last first.
    { eexists; exists gm, (g1 ++ g' :: g2). split; first by apply: Main Esf. split => //. constructor => //.
      + by rewrite Ch No.
      + cbn [empties]. rewrite e_mid. have -> : isempty g' = false by (rewrite /isempty; apply Z.eqb_neq; change (gl g') with l'; lia). done. }
    have Ie' : isempty g' = true by (rewrite /isempty; apply Z.eqb_eq; change (gl g') with l'; lia).
    destruct (Z.ltb_spec (empties s) me) as [Lm|Lm].
    { eexists; exists gm, (g1 ++ g' :: g2). split; first by apply: Main Esf. split => //. constructor => //.
      + by rewrite Ch No.
      + cbn [empties]. rewrite e_mid Ie'. lia.
      + cbn [empties]. lia. }
    have Gl : gl g' = [(0, SMD)]. { change (gl g') with l'. apply: only_md => //; last by move: (s_md _ _ _ Stk) => /fmid [].
      have [_ [R _]] := okh_perm_facts _ _ _ Oh. move => y /R. rewrite Cg. change (minimum (csm W)) with 32. lia. }
    have Sd := small_drop _ _ _ _ _ Stk Gl.
    rewrite /destroy in Esf. cbn [mains smalls avail empties] in Esf.
    rewrite -Im in Esf.
    have Q1 : Permutation (map blk (filter big cl') ++ map chunk (g1 ++ g :: g2) ++ map nod (g1 ++ g :: g2))
      (chunk g :: nod g :: map blk (filter big cl') ++ map chunk (g1 ++ g2) ++ map nod (g1 ++ g2)).
    { rewrite !map_mid !map_app. set A := map blk _. rewrite -!app_assoc /=. set B := map chunk g1. set C := map chunk g2. set D := map nod g1. set E := map nod g2.
      apply: (Permutation_trans (l' := chunk g :: A ++ B ++ C ++ D ++ nod g :: E)).
      - rewrite !(app_assoc A). apply: Permutation_sym. apply: Permutation_middle.
      - apply: perm_skip. rewrite !(app_assoc A) !(app_assoc (A ++ B)) !(app_assoc ((A ++ B) ++ C)). apply: Permutation_sym. apply: Permutation_middle. }
    have [gm1 [E1 [Sh1 K1]]] := mainok_free _ _ _ (base (gx g)) SSIZE SSIZE _ Imain' Q1 ltac:(by right).
    rewrite E1 in Esf.
    have [gm2 [E2 [Sh2 K2]]] := mainok_free _ _ _ (node (gx g)) SNODE SNODE _ K1 (Permutation_refl _) ltac:(by right).
    rewrite E2 in Esf.
    have ND' : NoDup (map gb (g1 ++ g' :: g2)) by rewrite !map_mid; rewrite map_mid in ND.
    have Dr := drop_hp g1 g' g2 ND'. change (gb g') with (base (gx g)) in Dr. rewrite Dr in Esf.
    eexists; exists gm2, (g1 ++ g2). split; first by apply: Main Esf. split; first congruence. constructor => //.
    + cbn [avail]. by apply: (av_drop g1 g g2).
    + cbn [empties]. rewrite Ie. lia.
Qed.
