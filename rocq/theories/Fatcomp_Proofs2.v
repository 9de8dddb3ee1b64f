(** Compaction: moving one cluster. *)
From Verif Require Import Lib Fat_Model Fat_Spec Fat_Proofs Fat_Proofs2 Fat_Proofs4 Fatdir_Model
  Fatdir_Spec Fatdir_Proofs Fatdir_Proofs2 Fatdir_Proofs3 Fatdir_Proofs4 Fatcomp_Model Fatcomp_Spec
  Fatcomp_Proofs.

(** * Paths in the table *)
Fixpoint lk (v : vol) (c : Z) (l : list Z) (y : Z) : Prop :=
  match l with
  | [] => c = y
  | x :: r => x = c /\ valid (vh v) x /\ lk v (fat0 v x) r y
  end.
Lemma lk_app v a b : forall c y, lk v c (a ++ b) y <-> exists m, lk v c a m /\ lk v m b y.
Proof.
  induction a as [|x a IH]; intros c y; cbn [app lk].
  - split; [intros H; exists c; auto|intros (m & -> & H); exact H].
  - rewrite IH. split.
    + intros (E & V & m & H1 & H2). exists m. auto.
    + intros (m & (E & V & H1) & H2). split; [exact E|]. split; [exact V|]. exists m. auto.
Qed.
Lemma lk_ext v v' l : vh v' = vh v -> (forall x, In x l -> fat0 v' x = fat0 v x) ->
  forall c y, lk v c l y -> lk v' c l y.
Proof.
  intros H F. induction l as [|x l IH]; intros c y; cbn [lk]; [auto|].
  intros (E & V & K). rewrite H. split; [exact E|]. split; [exact V|].
  rewrite F by (left; reflexivity). apply IH; [|exact K]. intros z Z. apply F. right. exact Z.
Qed.
Lemma chain_lk v c l : chain v c l <-> l <> [] /\ exists y, sp_eoc (vh v) y /\ lk v c l y.
Proof.
  split.
  - intros H. induction H as [c V E|c l V H IH].
    + split; [discriminate|]. exists (fat0 v c). cbn [lk]. auto.
    + destruct IH as (N & y & E & K). split; [discriminate|]. exists y. cbn [lk]. auto.
  - intros (N & y & E & K). revert c K. induction l as [|x l IH]; intros c K; [congruence|].
    cbn [lk] in K. destruct K as (-> & V & K). destruct l as [|x2 l].
    + cbn [lk] in K. subst y. apply chain_last; assumption.
    + apply chain_cons; [exact V|]. apply IH; [discriminate|exact K].
Qed.
Lemma lk_valid v l : forall c y, lk v c l y -> forall x, In x l -> valid (vh v) x.
Proof.
  induction l as [|x l IH]; intros c y K z Z; [destruct Z|]. cbn [lk] in K.
  destruct K as (_ & V & K). destruct Z as [<-|Z]; [exact V|]. eapply IH; eauto.
Qed.

Definition X1 (v : vol) (l : list Z) (c : Z) : Prop := In c l \/ fz v c.

Section RELOC.
  Variables (v : vol) (e first last clu ffc : Z) (a b : list Z).
  Hypothesis W : wf v.
  Let l := a ++ clu :: b.
  Hypothesis CH : chain v (de_cluster v e) l.
  Hypothesis ND : NoDup l.
  Hypothesis VF : valid (vh v) ffc.
  Hypothesis ZF : fz v ffc.
  Hypothesis NZ : forall c, In c l -> ~ fz v c.
  Hypothesis SL : slot_ok v (X1 v l) e.
  Hypothesis F1 : a = [] -> clu = first.
  Hypothesis F2 : a <> [] -> clu <> first /\ exists a', a = a' ++ [last].

  Let d1 := put_data v ffc (cdata v clu).
  Let d2 := if clu =? first then put_first d1 e ffc else put_fat d1 0 last ffc.
  Let d3 := put_fat d2 0 ffc (fat0 v clu).
  Let d4 := put_fat d3 0 clu 0.

  Lemma nf c : In c l -> c <> ffc.
  Proof. intros I ->. apply (NZ ffc I ZF). Qed.
  Lemma vl c : In c l -> valid (vh v) c.
  Proof. apply (chain_valid _ _ _ CH). Qed.
  Lemma in_clu : In clu l.
  Proof. unfold l. apply in_or_app. right. left. reflexivity. Qed.
  Lemma e_pos : 0 <= e /\ e + 32 <= vsz v.
  Proof. destruct SL as (A & B & _). destruct (tab_end_ok v W) as (C & _). lia. Qed.
  Lemma max_ok c : valid (vh v) c -> 0 <= c < max_val (vh v).
  Proof.
    intros [V1 V2]. unfold max_val. pose proof (clusters_small v W) as [CS _].
    destruct (width_cases v) as [[E F]|[E F]]; rewrite E.
    - change (2 =? 2) with true. cbn iota. lia.
    - change (4 =? 2) with false. cbn iota. lia.
  Qed.

  Lemma w1 : wf d1.
  Proof. apply st_wf; [exact W|]. apply bytes_wf. exact W. Qed.
  Lemma w2 : wf d2.
  Proof. unfold d2. destruct (clu =? first); [apply put_first_wf|apply put_fat_wf]; apply w1. Qed.
  Lemma w3 : wf d3.
  Proof. apply put_fat_wf. apply w2. Qed.
  Lemma w4 : wf d4.
  Proof. apply put_fat_wf. apply w3. Qed.
  Lemma h2 : vh d2 = vh v.
  Proof. unfold d2. destruct (clu =? first); reflexivity. Qed.
  Lemma s2 : vsz d2 = vsz v.
  Proof. unfold d2. destruct (clu =? first); reflexivity. Qed.
  Lemma h3 : vh d3 = vh v.
  Proof. exact h2. Qed.
  Lemma h4 : vh d4 = vh v.
  Proof. exact h2. Qed.

  Lemma last_in : a <> [] -> In last l /\ last <> clu /\ last <> ffc.
  Proof.
    intros N. destruct (F2 N) as (_ & a' & E).
    assert (I : In last l).
    { unfold l. rewrite E. apply in_or_app. left. apply in_or_app. right. left. reflexivity. }
    split; [exact I|]. split; [|apply nf; exact I]. intros Q. unfold l in ND. rewrite E, Q in ND.
    rewrite <- app_assoc in ND. cbn [app] in ND. apply NoDup_remove_2 in ND. apply ND.
    apply in_or_app. right. left. reflexivity.
  Qed.
  Lemma a_case : (a = [] /\ (clu =? first) = true) \/
                 (a <> [] /\ (clu =? first) = false /\ In last l /\ last <> clu /\ last <> ffc).
  Proof.
    assert (D : a = [] \/ a <> []) by (destruct a; [left; reflexivity|right; discriminate]).
    destruct D as [N|N].
    - left. split; [exact N|]. apply Z.eqb_eq. auto.
    - right. split; [exact N|]. split.
      + apply Z.eqb_neq. apply F2. exact N.
      + apply last_in. exact N.
  Qed.

  Lemma move_eq : move_cluster v e first last clu ffc (fat0 v clu) = Ok d4.
  Proof.
    unfold move_cluster. cbv zeta. pose proof (vl clu in_clu) as VC.
    rewrite !(cluster_ptr_eq v W) by assumption. change (cluster_size (vh v)) with (csize v).
    destruct (cluster_off_bounds v W clu VC) as (P0 & _ & P1).
    destruct (cluster_off_bounds v W ffc VF) as (Q0 & _ & Q1).
    destruct (data_in v W) as [_ DI]. pose proof (csize_pos v W) as CS.
    rewrite ld_ok by lia. cbn [bind]. fold (cdata v clu).
    rewrite st_ok by (rewrite ?cdata_len by exact W; lia). cbn [bind].
    change (Vol (vh v) (vsz v) (upd (vm v) (sp_cluster_off (vh v) ffc) (cdata v clu))) with d1.
    change (fat_type (vh v)) with (fat_type (vh d1)).
    assert (E2 : (if clu =? first then set_first_cluster d1 e ffc
                  else write_fat d1 (fat_type (vh d1)) 0 last ffc) = Ok d2).
    { unfold d2. destruct e_pos. destruct a_case as [[N ->]|(N & -> & I & _)].
      - apply put_first_ok; assumption.
      - apply write_fat_ok; [apply w1|apply (nfats0 v W)|apply (valid_inr v), vl; exact I|].
        apply (max_ok ffc VF). }
    rewrite E2. cbn [bind]. replace (vh d1) with (vh d2) by exact h2.
    rewrite (write_fat_ok d2 0 ffc (fat0 v clu)).
    - cbn [bind]. change (put_fat d2 0 ffc (fat0 v clu)) with d3.
      replace (vh d2) with (vh d3) by reflexivity. apply write_fat_ok.
      + apply w3.
      + rewrite h3. apply (nfats0 v W).
      + rewrite h3. apply (valid_inr v), vl, in_clu.
      + rewrite h3. unfold max_val. destruct (sp_width (vh v) =? 2); lia.
    - apply w2.
    - rewrite h2. apply (nfats0 v W).
    - rewrite h2. apply (valid_inr v). exact VF.
    - rewrite h2. apply (fat_val_range v 0 clu W).
  Qed.

  Lemma frame4 : frame (X1 v l) (eq e) v d4.
  Proof.
    split; [exact h4|]. split; [exact s2|]. intros x P Q.
    assert (NT : forall c, valid (vh v) c -> X1 v l c ->
       x < sp_fat_off (vh v) 0 c \/ sp_fat_off (vh v) 0 c + sp_width (vh v) <= x).
    { intros c V Xc. destruct (P c V Xc) as [T _]. unfold in_tab in T. lia. }
    unfold d4. rewrite put_fat_out.
    2:{ rewrite h3. apply NT; [apply vl, in_clu|left; apply in_clu]. }
    unfold d3. rewrite put_fat_out.
    2:{ rewrite h2. apply NT; [exact VF|right; exact ZF]. }
    assert (D1 : vm d1 x = vm v x).
    { cbn [d1 put_data vm]. apply upd_out. rewrite cdata_len by exact W.
      destruct (P ffc VF (or_intror ZF)) as [_ T]. unfold in_dat in T. lia. }
    unfold d2. destruct a_case as [[N ->]|(N & -> & I & _)].
    - rewrite put_first_out by (apply Q; reflexivity). exact D1.
    - rewrite put_fat_out; [exact D1|]. apply (NT last); [apply vl; exact I|left; exact I].
  Qed.

  (** the table afterwards *)
  Lemma fat1 c : inr v c -> fat0 d1 c = fat0 v c.
  Proof.
    intros I. unfold fat0. apply fat_val_ext; [reflexivity|]. intros x X. cbn [d1 put_data vm].
    apply upd_out. left. destruct (cluster_off_bounds v W ffc VF) as (Q0 & _).
    destruct (tab_end_ok v W) as (_ & T2 & T3). specialize (T3 c I). lia.
  Qed.
  Lemma fat2 c : inr v c -> fat0 d2 c = if negb (clu =? first) && (c =? last) then ffc else fat0 v c.
  Proof.
    intros I. unfold d2. destruct a_case as [[N ->]|(N & -> & IL & _)]; cbn [negb andb].
    - rewrite <- fat1 by exact I. unfold fat0. apply fat_val_ext; [reflexivity|]. intros x X.
      apply put_first_out. destruct SL as (A & _). destruct (tab_end_ok v W) as (_ & _ & T3).
      specialize (T3 c I). change (vh d1) with (vh v) in X. unfold fld. lia.
    - destruct (Z.eqb_spec c last) as [->|NE].
      + apply put_fat_same; [apply w1|apply (max_ok ffc VF)].
      + unfold fat0. rewrite put_fat_other; [apply fat1; exact I|apply w1|apply (nfats0 v W)|
          apply (valid_inr v), vl; exact IL|apply (nfats0 v W)|exact I|congruence].
  Qed.
  Lemma fat4 c : inr v c -> fat0 d4 c =
    if c =? clu then 0 else if c =? ffc then fat0 v clu
    else if negb (clu =? first) && (c =? last) then ffc else fat0 v c.
  Proof.
    intros I. unfold d4. destruct (Z.eqb_spec c clu) as [->|N1].
    { apply put_fat_same; [apply w3|]. rewrite h3. unfold max_val. destruct (sp_width (vh v) =? 2); lia. }
    unfold fat0. rewrite put_fat_other; [|apply w3|rewrite h3; apply (nfats0 v W)|
      rewrite h3; apply (valid_inr v), vl, in_clu|rewrite h3; apply (nfats0 v W)|rewrite h3; exact I|congruence].
    unfold d3. destruct (Z.eqb_spec c ffc) as [->|N2].
    { apply put_fat_same; [apply w2|]. rewrite h2. apply (fat_val_range v 0 clu W). }
    rewrite put_fat_other; [|apply w2|rewrite h2; apply (nfats0 v W)|
      rewrite h2; apply (valid_inr v); exact VF|rewrite h2; apply (nfats0 v W)|rewrite h2; exact I|congruence].
    apply (fat2 c I).
  Qed.
  Lemma zero4 c : inr v c -> (fz d4 c <-> (fz v c \/ c = clu) /\ c <> ffc).
  Proof.
    intros I. unfold fz. rewrite fat4 by exact I.
    pose proof (NZ clu in_clu) as NC. unfold fz in NC.
    pose proof (nf clu in_clu) as CF.
    destruct (Z.eqb_spec c clu) as [->|N1]; [split; auto|].
    destruct (Z.eqb_spec c ffc) as [->|N2]; [split; [intros; contradiction|intros [_ Q]; congruence]|].
    destruct a_case as [[N ->]|(N & -> & IL & _)]; cbn [negb andb].
    - split; [auto|intros [[Q|Q] _]; [exact Q|contradiction]].
    - destruct (Z.eqb_spec c last) as [->|N3].
      + split; [unfold valid in VF; lia|]. intros [[Q|Q] _]; [|contradiction].
        exfalso. apply (NZ last IL Q).
      + split; [auto|intros [[Q|Q] _]; [exact Q|contradiction]].
  Qed.

  (** data *)
  Lemma e_apart c a' : valid (vh v) c -> X1 v l c -> in_dat v c a' -> ~ fld e a'.
  Proof.
    intros V Xc D F. destruct SL as (_ & _ & S3). destruct (S3 c V Xc); unfold in_dat, fld in *; lia.
  Qed.
  Lemma dat_d1 c x : valid (vh v) c -> X1 v l c -> in_dat v c x -> vm d4 x = vm d1 x.
  Proof.
    intros V Xc D. destruct (cluster_off_bounds v W c V) as (Q0 & _).
    destruct (tab_end_ok v W) as (_ & T2 & T3). unfold in_dat in D.
    unfold d4. rewrite put_fat_out by (rewrite h3; specialize (T3 clu (valid_inr v clu (vl clu in_clu))); lia).
    unfold d3. rewrite put_fat_out by (rewrite h2; specialize (T3 ffc (valid_inr v ffc VF)); lia).
    unfold d2. destruct a_case as [[N ->]|(N & -> & I & _)].
    - apply put_first_out. apply (e_apart c x V Xc). exact D.
    - rewrite put_fat_out; [reflexivity|]. specialize (T3 last (valid_inr v last (vl last I))).
      change (vh d1) with (vh v). lia.
  Qed.
  Lemma data_ffc : cdata d4 ffc = cdata v clu.
  Proof.
    assert (L : zlen (cdata v clu) = csize v) by (apply cdata_len; exact W).
    pose proof (csize_pos v W).
    transitivity (bytes (vm d1) (sp_cluster_off (vh v) ffc) (csize v)).
    - unfold cdata, csize. rewrite h4. apply bytes_ext. intros i I.
      apply (dat_d1 ffc); [exact VF|right; exact ZF|]. unfold in_dat, csize. lia.
    - apply (znth_ext 0); [rewrite bytes_len by lia; symmetry; exact L|].
      intros i I. rewrite bytes_len in I by lia. rewrite bytes_nth by lia.
      cbn [d1 put_data vm]. rewrite upd_in by lia. f_equal. lia.
  Qed.
  Lemma data_other c : In c l -> cdata d4 c = cdata v c.
  Proof.
    intros I. apply cdata_ext; [exact h4|]. intros x D.
    rewrite (dat_d1 c x (vl c I) (or_introl I) D). cbn [d1 put_data vm]. apply upd_out.
    rewrite cdata_len by exact W. pose proof (dat_apart v c ffc x W (nf c I) D) as Q.
    unfold in_dat in Q. lia.
  Qed.

  (** the chain *)
  Lemma de_same : a <> [] -> de_cluster d4 e = de_cluster v e.
  Proof.
    intros N. destruct e_pos as [E1 E2]. destruct SL as (A & _ & S3).
    assert (R : forall i, 0 <= i < 32 -> vm d4 (e + i) = vm v (e + i)).
    { intros i I. destruct (tab_end_ok v W) as (_ & T2 & T3).
      unfold d4. rewrite put_fat_out by (rewrite h3; specialize (T3 clu (valid_inr v clu (vl clu in_clu))); lia).
      unfold d3. rewrite put_fat_out by (rewrite h2; specialize (T3 ffc (valid_inr v ffc VF)); lia).
      unfold d2. destruct a_case as [[N0 ->]|(N0 & -> & IL & _)]; [contradiction|].
      rewrite put_fat_out.
      2:{ specialize (T3 last (valid_inr v last (vl last IL))). change (vh d1) with (vh v). lia. }
      cbn [d1 put_data vm]. apply upd_out. rewrite cdata_len by exact W.
      destruct (S3 ffc VF (or_intror ZF)); lia. }
    unfold de_cluster. rewrite !R by lia. reflexivity.
  Qed.
  Lemma de_first : a = [] -> de_cluster d4 e = ffc.
  Proof.
    intros N. destruct e_pos as [E1 E2]. destruct SL as (A & _ & S3).
    destruct (tab_end_ok v W) as (_ & T2 & T3).
    assert (R : forall i, 0 <= i < 32 -> vm d4 (e + i) = vm (put_first d1 e ffc) (e + i)).
    { intros i I.
      unfold d4. rewrite put_fat_out by (rewrite h3; specialize (T3 clu (valid_inr v clu (vl clu in_clu))); lia).
      unfold d3. rewrite put_fat_out by (rewrite h2; specialize (T3 ffc (valid_inr v ffc VF)); lia).
      unfold d2. destruct a_case as [[N0 ->]|(N0 & -> & IL & _)]; [reflexivity|contradiction]. }
    transitivity (de_cluster (put_first d1 e ffc) e).
    - unfold de_cluster. rewrite !R by lia. reflexivity.
    - apply put_first_same. pose proof (max_ok ffc VF) as M. unfold max_val in M.
      destruct (sp_width (vh v) =? 2); lia.
  Qed.
  Lemma tail_ext c : In c b -> fat0 d4 c = fat0 v c.
  Proof.
    intros I. assert (IL : In c l) by (unfold l; apply in_or_app; right; right; exact I).
    rewrite fat4 by (apply valid_inr, vl; exact IL).
    assert (NC : c <> clu).
    { intros ->. unfold l in ND. apply NoDup_remove_2 in ND. apply ND. apply in_or_app. auto. }
    replace (c =? clu) with false by lia. replace (c =? ffc) with false by (pose proof (nf c IL); lia).
    destruct a_case as [[N ->]|(N & -> & I2 & _)]; [reflexivity|]. cbn [negb andb].
    replace (c =? last) with false; [reflexivity|]. symmetry. apply Z.eqb_neq. intros ->.
    destruct (F2 N) as (_ & a' & E). unfold l in ND. rewrite E in ND. rewrite <- app_assoc in ND.
    cbn [app] in ND. apply NoDup_remove_2 in ND. apply ND. apply in_or_app. right. right. exact I.
  Qed.
  Lemma chain4 : chain d4 (de_cluster d4 e) (a ++ ffc :: b).
  Proof.
    apply chain_lk. destruct (proj1 (chain_lk _ _ _) CH) as (_ & y & Y & K).
    split; [destruct a; discriminate|]. exists y. rewrite h4. split; [exact Y|].
    unfold l in K. rewrite lk_app in K. destruct K as (m & KA & KB).
    cbn [lk] in KB. destruct KB as (<- & VC & KB).
    rewrite lk_app. exists ffc. split.
    - destruct a_case as [[N Q]|(N & Q & IL & LC & LF)].
      + rewrite N. cbn [lk]. apply de_first. exact N.
      + rewrite (de_same N). destruct (F2 N) as (_ & a' & E). rewrite E in KA |- *.
        rewrite lk_app in KA. destruct KA as (m & KA & KL). cbn [lk] in KL.
        destruct KL as (<- & VL & KL).
        rewrite lk_app. exists last. split.
        * apply (lk_ext v); [exact h4| |exact KA]. intros x X.
          assert (XL : In x l).
          { unfold l. rewrite E. apply in_or_app. left. apply in_or_app. left. exact X. }
          rewrite fat4 by (apply valid_inr, vl; exact XL).
          assert (NC : x <> clu /\ x <> last).
          { unfold l in ND. rewrite E in ND. split; intros ->.
            - apply NoDup_remove_2 in ND. apply ND. apply in_or_app. left. apply in_or_app. auto.
            - rewrite <- app_assoc in ND. cbn [app] in ND. apply NoDup_remove_2 in ND. apply ND.
              apply in_or_app. auto. }
          replace (x =? clu) with false by lia.
          replace (x =? ffc) with false by (pose proof (nf x XL); lia).
          replace (x =? last) with false by lia. rewrite andb_false_r. reflexivity.
        * cbn [lk]. split; [reflexivity|]. split; [rewrite h4; exact VL|].
          rewrite fat4 by (apply valid_inr; exact VL).
          replace (last =? clu) with false by lia. replace (last =? ffc) with false by lia.
          rewrite Q, Z.eqb_refl. reflexivity.
    - cbn [lk]. split; [reflexivity|]. split; [rewrite h4; exact VF|].
      rewrite fat4 by (apply valid_inr; exact VF).
      replace (ffc =? clu) with false by (pose proof (nf clu in_clu); lia).
      rewrite Z.eqb_refl. apply (lk_ext v); [exact h4|exact tail_ext|exact KB].
  Qed.
End RELOC.

Theorem reloc v e first last clu ffc a b : wf v -> chain v (de_cluster v e) (a ++ clu :: b) ->
  NoDup (a ++ clu :: b) -> valid (vh v) ffc -> fz v ffc ->
  (forall c, In c (a ++ clu :: b) -> ~ fz v c) ->
  slot_ok v (X1 v (a ++ clu :: b)) e ->
  (a = [] -> clu = first) -> (a <> [] -> clu <> first /\ exists a', a = a' ++ [last]) ->
  exists v', move_cluster v e first last clu ffc (fat0 v clu) = Ok v' /\ wf v' /\
    frame (X1 v (a ++ clu :: b)) (eq e) v v' /\
    chain v' (de_cluster v' e) (a ++ ffc :: b) /\
    map (cdata v') (a ++ ffc :: b) = map (cdata v) (a ++ clu :: b) /\
    (forall c, inr v c -> (fz v' c <-> (fz v c \/ c = clu) /\ c <> ffc)).
Proof.
  intros W CH ND VF ZF NZ SL F1 F2.
  eexists. split; [apply (move_eq v e first last clu ffc a b); assumption|].
  split; [apply w4; assumption|].
  split; [apply (frame4 v e first last clu ffc a b); assumption|].
  split; [apply (chain4 v e first last clu ffc a b); assumption|].
  split.
  - rewrite !map_app. cbn [map]. 
    assert (D : forall c, In c (a ++ clu :: b) -> cdata (put_fat (put_fat (if clu =? first
      then put_first (put_data v ffc (cdata v clu)) e ffc
      else put_fat (put_data v ffc (cdata v clu)) 0 last ffc) 0 ffc (fat0 v clu)) 0 clu 0) c = cdata v c).
    { intros c C. apply (data_other v e first last clu ffc a b); assumption. }
    f_equal; [|f_equal].
    + apply map_ext_in. intros c C. apply D. apply in_or_app. auto.
    + apply (data_ffc v e first last clu ffc a b); assumption.
    + apply map_ext_in. intros c C. apply D. apply in_or_app. right. right. exact C.
  - intros c C. apply (zero4 v e first last clu ffc a b); assumption.
Qed.
