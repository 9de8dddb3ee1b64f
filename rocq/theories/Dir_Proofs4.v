(** rmdir and rename keep the invariant *)
From Verif Require Import Lib Dir_Model Dir_Spec Dir_Proofs Dir_Proofs2 Dir_Proofs3.

Lemma three_in {A} (f : A -> bool) l a b c : In a l -> In b l -> In c l ->
  f a = true -> f b = true -> f c = true -> a <> b -> a <> c -> b <> c -> 3 <= count f l.
Proof.
  intros Ha Hb Hc Fa Fb Fc N1 N2 N3. unfold count.
  assert (ND : NoDup [a; b; c]).
  { constructor; [cbn; intuition congruence|]. constructor; [cbn; intuition congruence|].
    constructor; [cbn; tauto|constructor]. }
  assert (IN : incl [a; b; c] (filter f l)).
  { intros x [<- | [<- | [<- | []]]]; apply filter_In; auto. }
  pose proof (NoDup_incl_length ND IN) as L. cbn [length] in L. unfold zlen. lia.
Qed.

Lemma two_elems {A} (l : list A) a b : In a l -> In b l -> a <> b -> zlen l <= 2 ->
  l = [a; b] \/ l = [b; a].
Proof.
  intros Ha Hb NE L. destruct l as [|x [|y [|z l]]].
  - destruct Ha.
  - cbn in *. intuition congruence.
  - cbn in *. intuition congruence.
  - exfalso. unfold zlen in L. cbn [length] in L. lia.
Qed.

Section P.
  Variables (dbg : bool) (NAMEMAX : Z).
  Notation core := (core NAMEMAX).
  Notation wf := (wf NAMEMAX).
  Notation remove_entry := (remove_entry dbg).
  Notation okp := (okp NAMEMAX).

  Lemma named_uniq s d n e f : core s -> named s d n e -> named s d n f -> e = f.
  Proof.
    intros C (A1 & A2 & A3) (B1 & B2 & B3). eapply (NoDup_key _ _ _ _ (c_names _ _ C)); auto. cbn. congruence.
  Qed.

  Lemma dots_target s f : wf s -> In f (ents s) -> dots (e_name f) ->
    exists D, ino s (e_dir f) = Some D /\ i_type D = FDir /\
      ((e_name f = DOT /\ e_tgt f = e_dir f) \/ (e_name f = DOTDOT /\ e_tgt f = i_parent D)).
  Proof.
    intros [C T] HI DN. destruct (c_dir _ _ C _ HI) as (D & ED & TD). exists D. split; [exact ED|]. split; [exact TD|].
    destruct DN as [N | N].
    - left. split; [exact N|]. destruct (t_dot _ T _ _ ED TD) as (g & G & Q).
      assert (f = g) by (eapply named_uniq; [exact C| |exact G]; split; auto). congruence.
    - right. split; [exact N|]. destruct (t_dotdot _ T _ _ ED TD) as (g & G & Q).
      assert (f = g) by (eapply named_uniq; [exact C| |exact G]; split; auto). congruence.
  Qed.

  (** What a successful rmdir did *)
  Definition removed_dir (s s' : st) (d : Z) (n : list Z) (i : Z) : Prop :=
    ~ dots n /\ i <> ROOT /\ d <> i /\ is_dir s i /\
    (exists e, named s d n e /\ e_tgt e = i) /\
    (forall f, In f (ents s) -> e_dir f = i -> dots (e_name f)) /\
    (forall h, In h (hnds s) -> h_ino h <> i) /\ ~ In i (pins s) /\
    (forall f, In f (ents s) -> e_tgt f = i -> e_dir f <> i -> named s d n f) /\
    (forall f, In f (ents s') <-> In f (ents s) /\ e_dir f <> i /\ e_tgt f <> i) /\
    ino s' i = None /\
    (forall j, j <> i -> match ino s j, ino s' j with
          | Some x, Some y => same x y | None, None => True | _, _ => False end) /\
    nexte s' = nexte s.

  (** What a successful unlink did *)
  Definition removed_file (s s' : st) (d : Z) (n : list Z) (e : entry) (x : inode) : Prop :=
    named s d n e /\ ino s (e_tgt e) = Some x /\ i_type x <> FDir /\
    (forall f, In f (ents s') <-> In f (ents s) /\ f <> e) /\
    (ino s' (e_tgt e) = None <->
       i_refs x = 0 /\ forall f, In f (ents s) -> e_tgt f = e_tgt e -> f = e) /\
    (forall y, ino s' (e_tgt e) = Some y -> same x y) /\
    (forall j, j <> e_tgt e -> match ino s j, ino s' j with
          | Some x, Some y => same x y | None, None => True | _, _ => False end) /\
    nexte s' = nexte s.

  Lemma ents_without s e f : core s -> In e (ents s) ->
    (In f (filter (fun f => negb (e_id f =? e_id e)) (ents s)) <-> In f (ents s) /\ f <> e).
  Proof.
    intros C HE. rewrite in_remove. split; intros [H1 H2]; (split; [exact H1|]); [congruence|].
    intros H3. apply H2. eapply (NoDup_key _ _ _ _ (c_ids _ _ C)); auto.
  Qed.

  Lemma do_unlink_ok s d n p : wf s -> is_dir s d -> okp s d n p ->
    exists s' rc, do_unlink dbg s p = Ok s' rc [] /\ wf s' /\ ev s s' /\
      (rc <> 0 -> s' = s) /\
      (rc = 0 -> exists e x, p_ino p = Some (e_tgt e) /\ removed_file s s' d n e x).
  Proof.
    intros W HD (P1 & P2 & P3 & P4). pose proof W as [C T].
    assert (SAME : forall rc, rc <> 0 -> exists s' rc', Ok s rc [] = Ok s' rc' [] /\ wf s' /\ ev s s' /\
      (rc' <> 0 -> s' = s) /\ (rc' = 0 -> exists e x, p_ino p = Some (e_tgt e) /\ removed_file s s' d n e x)).
    { intros rc NZ. exists s, rc. split; [reflexivity|]. split; [exact W|]. split; [apply ev_same; auto; lia|].
      split; [auto|contradiction]. }
    unfold do_unlink, ok. destruct P4 as [(PI & _) | (e & (Q1 & Q2 & Q3) & PI & PE)]; rewrite ?PE in *; rewrite PI in *; [apply SAME; discriminate|].
    destruct (c_tgt _ _ C _ Q1) as (x & EI). rewrite EI. destruct HD as (D & ED & TD).
    rewrite P1, ED. destruct (ftype_eqb (i_type x) FDir) eqn:TI; [apply SAME; discriminate|].
    destruct (has (i_mode D) 128); cbn [negb]; [|apply SAME; discriminate]. clear SAME.
    assert (TX : i_type x <> FDir) by (intros Q; apply ftype_eqb_iff in Q; congruence).
    destruct (unlink_ok dbg NAMEMAX s e x W Q1 EI TX)
      as (s1 & R1 & C1 & SH1 & EN1 & H1 & H2 & H3 & H4 & EV1 & y & EY & SY & KD & KW).
    rewrite Q2 in R1. rewrite R1. cbn [bind]. rewrite EY.
    assert (NX : nexte s1 = nexte s).
    { destruct (remove_ok dbg NAMEMAX s e C Q1) as (s1' & R1' & _ & _ & _ & _ & _ & _ & _ & G & _).
      rewrite Q2 in R1'. congruence. }
    assert (RY : i_refs y = i_refs x) by (unfold same in SY; intuition congruence).
    assert (NL : i_nlink y = 0 <-> forall f, In f (ents s) -> e_tgt f = e_tgt e -> f = e).
    { rewrite (c_nlink _ _ C1 _ _ EY). split.
      - intros Z0 f F1 F2. destruct (Z.eq_dec (e_id f) (e_id e)) as [EQ | NE].
        + eapply (NoDup_key _ _ _ _ (c_ids _ _ C)); auto.
        + exfalso. assert (0 < count (fun f => e_tgt f =? e_tgt e) (ents s1)); [|lia].
          apply count_pos. exists f. split; [|lia]. rewrite EN1. apply in_remove. auto.
      - intros ALL. apply count_zero. intros f HF. rewrite EN1 in HF. apply in_remove in HF as [F1 F2].
        apply Z.eqb_neq. intros F3. apply F2. rewrite (ALL f F1 F3). reflexivity. }
    assert (INF : forall f, In f (ents s1) <-> In f (ents s) /\ f <> e) by (intros f; rewrite EN1; apply ents_without; auto).
    destruct ((i_nlink y =? 0) && (i_refs y =? 0)) eqn:QQ.
    - destruct KD as [DS WK]; [lia|lia|]. rewrite DS. cbn [bind]. exists (kfree s1 (e_tgt e)), 0.
      split; [reflexivity|]. split; [exact WK|].
      split; [eapply ev_trans; [apply (c_idlt _ _ C)|exact EV1|]; apply ev_same; auto; cbn; lia|].
      split; [congruence|]. intros _. exists e, x. split; [exact PI || reflexivity|]. unfold removed_file.
      split; [split; auto|]. split; [exact EI|]. split; [exact TX|]. split; [exact INF|].
      assert (IK : ino (kfree s1 (e_tgt e)) (e_tgt e) = None) by (unfold kfree; cbn; apply fupd_same).
      split; [split; [intros _; split; [lia|apply NL; lia]|intros _; exact IK]|].
      split; [intros z Ez; congruence|]. split; [|cbn; exact NX].
      intros j NE. unfold kfree. cbn. rewrite fupd_other by auto. apply SH1.
    - exists s1, 0. split; [reflexivity|]. split; [apply KW; lia|]. split; [exact EV1|].
      split; [congruence|]. intros _. exists e, x. split; [exact PI || reflexivity|]. unfold removed_file.
      split; [split; auto|]. split; [exact EI|]. split; [exact TX|]. split; [exact INF|].
      split; [split; [congruence|intros [A1 A2]; apply NL in A2; lia]|].
      split; [intros z Ez; congruence|]. split; [|exact NX]. intros j _. apply SH1.
  Qed.

  Lemma rmdir_ok s d n p : wf s -> is_dir s d -> okp s d n p -> ~ (d = ROOT /\ n = DOTDOT) ->
    (n = DOT -> p_last p = n) ->
    exists s' rc, do_rmdir dbg s p = Ok s' rc [] /\ wf s' /\ ev s s' /\
      (rc <> 0 -> s' = s) /\
      (rc = 0 -> exists i, p_ino p = Some i /\ removed_dir s s' d n i).
  Proof.
    intros W HD (P1 & P2 & P3 & P4) NDD NDOT. pose proof W as [C T].
    assert (SAME : forall rc, rc <> 0 -> exists s' rc', Ok s rc [] = Ok s' rc' [] /\ wf s' /\ ev s s' /\
      (rc' <> 0 -> s' = s) /\ (rc' = 0 -> exists i, p_ino p = Some i /\ removed_dir s s' d n i)).
    { intros rc NZ. exists s, rc. split; [reflexivity|]. split; [exact W|]. split; [apply ev_same; auto; lia|].
      split; [auto|contradiction]. }
    unfold do_rmdir, ok. destruct P4 as [(PI & _) | (e & (Q1 & Q2 & Q3) & PI & PE)]; rewrite ?PE in *; rewrite PI in *; [apply SAME; discriminate|].
    destruct (c_tgt _ _ C _ Q1) as (Ix & EI). rewrite EI. destruct HD as (D & ED & TD).
    rewrite P1, ED. destruct (ftype_eqb (i_type Ix) FDir) eqn:TI; cbn [negb]; [|apply SAME; discriminate].
    apply ftype_eqb_iff in TI. destruct (has (i_mode D) 128); cbn [negb]; [|apply SAME; discriminate].
    destruct (is_dot (p_last p)) eqn:ISD; [apply SAME; discriminate|].
    destruct (i_num Ix >? 2) eqn:NUM; [apply SAME; discriminate|].
    destruct (i_refs Ix >? 0) eqn:REF; [apply SAME; discriminate|].
    clear SAME. set (i := e_tgt e) in *.
    rewrite (c_num _ _ C _ _ EI TI) in NUM.
    destruct (t_dot _ T _ _ EI TI) as (a & A & AT). destruct (t_dotdot _ T _ _ EI TI) as (b & B & BT).
    pose proof A as (A1 & A2 & A3). pose proof B as (B1 & B2 & B3).
    assert (AB : a <> b) by (intros ->; rewrite A3 in B3; discriminate).
    assert (DE : dents s i = [a; b] \/ dents s i = [b; a]).
    { apply two_elems; auto; try (apply dents_in; auto). unfold dents, count in *. lia. }
    assert (ONLY : forall f, In f (ents s) -> e_dir f = i -> f = a \/ f = b).
    { intros f HF DF. assert (G : In f (dents s i)) by (apply dents_in; auto).
      destruct DE as [DE | DE]; rewrite DE in G; cbn in G; intuition. }
    assert (NCH : forall g G, ino s g = Some G -> i_type G = FDir -> g <> ROOT -> i_parent G <> i).
    { intros g G EG TG NR EQ. destruct (t_name _ T _ _ EG TG NR) as (f & F1 & F2 & F3 & F4).
      apply F3. destruct (ONLY f F1) as [-> | ->]; [congruence|left; auto|right; auto]. }
    assert (ND : ~ dots n).
    { intros [-> | ->].
      - rewrite (NDOT eq_refl) in ISD. discriminate.
      - destruct (dots_target s e W Q1) as (D' & ED' & TD' & [[M1 M2] | [M1 M2]]); [right; auto|rewrite M1 in Q3; discriminate|].
        assert (NR : d <> ROOT) by (intros ->; apply NDD; auto).
        rewrite Q2 in ED'. apply (NCH d D' ED' TD' NR). symmetry. exact M2. }
    destruct (t_only _ T e Ix Q1 EI TI) as [PA NR]; [rewrite Q3; exact ND|]. fold i in NR.
    destruct (t_parent _ T _ _ EI TI NR) as [PD PL].
    assert (DI : d <> i) by (rewrite <- Q2, PA; lia).
    (* the removals *)
    assert (RM : exists s2, bind (remove_entry s i (match dents s i with e :: _ => Some (e_id e) | [] => None end))
          (fun s1 _ => remove_entry s1 i (match dents s1 i with e :: _ => Some (e_id e) | [] => None end)) = Ok s2 0 [] /\
          core s2 /\ shape s s2 /\ pins s2 = pins s /\ nexte s2 = nexte s /\ ev s s2 /\
          (forall f, In f (ents s2) <-> In f (ents s) /\ e_dir f <> i)).
    { assert (GEN : forall x y, In x (ents s) -> In y (ents s) -> x <> y -> e_dir x = i -> e_dir y = i -> dents s i = [x; y] ->
        exists s2, bind (remove_entry s i (match dents s i with e :: _ => Some (e_id e) | [] => None end))
          (fun s1 _ => remove_entry s1 i (match dents s1 i with e :: _ => Some (e_id e) | [] => None end)) = Ok s2 0 [] /\
          core s2 /\ shape s s2 /\ pins s2 = pins s /\ nexte s2 = nexte s /\ ev s s2 /\
          (forall f, In f (ents s2) <-> In f (ents s) /\ e_dir f <> i)).
      { intros x y X1 Y1 XY X2 Y2 DX. rewrite DX.
        assert (IDN : e_id y <> e_id x).
        { intros EQ. apply XY. eapply (NoDup_key _ _ _ _ (c_ids _ _ C)); auto. }
        destruct (remove_ok dbg NAMEMAX s x C X1) as (s1 & R1 & C1 & SH1 & EN1 & H1 & H2 & H3 & H4 & H5 & EV1).
        rewrite X2 in R1. rewrite R1. cbn [bind].
        assert (D1 : dents s1 i = [y]).
        { unfold dents at 1. rewrite EN1, <- dents_filter, DX. cbn. rewrite Z.eqb_refl.
          replace (e_id y =? e_id x) with false by lia. reflexivity. }
        rewrite D1.
        assert (Y1' : In y (ents s1)) by (rewrite EN1; apply in_remove; auto).
        destruct (remove_ok dbg NAMEMAX s1 y C1 Y1') as (s2 & R2 & C2 & SH2 & EN2 & K1 & K2 & K3 & K4 & K5 & EV2).
        rewrite Y2 in R2. exists s2. split; [exact R2|]. split; [exact C2|].
        split; [eapply shape_trans; eauto|]. split; [congruence|]. split; [congruence|].
        split; [eapply ev_trans; [apply (c_idlt _ _ C)|exact EV1|exact EV2]|].
        intros f. rewrite EN2, EN1, !in_remove. split.
        - intros ((G1 & G2) & G3). split; [exact G1|]. intros G4.
          assert (G : In f (dents s i)) by (apply dents_in; auto). rewrite DX in G.
          destruct G as [<- | [<- | []]]; congruence.
        - intros (G1 & G2). split; [split; [exact G1|]|]; intros G3.
          + assert (f = x) by (eapply (NoDup_key _ _ _ _ (c_ids _ _ C)); auto). congruence.
          + assert (f = y) by (eapply (NoDup_key _ _ _ _ (c_ids _ _ C)); auto). congruence. }
      destruct DE as [DE | DE]; [apply (GEN a b)|apply (GEN b a)]; auto. }
    destruct RM as (s2 & RM & C2 & SH2 & EP2 & EE2 & EV2 & IN2).
    assert (BB : forall r f g, bind (bind r f) g = bind r (fun s x => bind (f s x) g))
      by (intros [? ? ?|?] ? ?; reflexivity).
    rewrite <- (BB _ (fun s1 _ => remove_entry s1 i (match dents s1 i with e :: _ => Some (e_id e) | [] => None end))).
    rewrite RM. cbn [bind].
    assert (E2 : In e (ents s2)) by (apply IN2; split; [exact Q1|congruence]).
    destruct (remove_ok dbg NAMEMAX s2 e C2 E2) as (s3 & R3 & C3 & SH3 & EN3 & K1 & K2 & K3 & K4 & K5 & EV3).
    rewrite Q2 in R3. rewrite R3. cbn [bind].
    assert (IN3 : forall f, In f (ents s3) <-> In f (ents s) /\ e_dir f <> i /\ e_tgt f <> i).
    { intros f. rewrite EN3, in_remove, IN2. split.
      - intros ((G1 & G2) & G3). split; [exact G1|]. split; [exact G2|]. intros G4.
        assert (DOTS : ~ dots (e_name f)).
        { intros DN. destruct (dots_target s f W G1 DN) as (G & EG & TG & [[M1 M2] | [M1 M2]]); [congruence|].
          destruct (Z.eq_dec (e_dir f) ROOT) as [RT | NRT].
          - destruct (t_root _ T) as (R & ER & TR & PR). rewrite RT in EG. congruence.
          - apply (NCH _ _ EG TG NRT). congruence. }
        apply G3. f_equal. apply (t_uniq _ T f e Ix); auto; congruence.
      - intros (G1 & G2 & G3). split; [auto|]. intros G4.
        assert (f = e) by (eapply (NoDup_key _ _ _ _ (c_ids _ _ C)); auto). subst f. apply G3. reflexivity. }
    assert (SH : shape s s3) by (eapply shape_trans; eauto).
    destruct (shape_some _ _ _ _ SH EI) as (y & EY & SY).
    assert (TY : i_type y = FDir /\ i_refs y = i_refs Ix /\ i_parent y = i_parent Ix) by (unfold same in SY; intuition congruence).
    destruct TY as (TY & RY & PY).
    assert (NLY : i_nlink y = 0).
    { rewrite (c_nlink _ _ C3 _ _ EY). apply count_zero. intros f HF. apply IN3 in HF. lia. }
    assert (RC : count (fun h => h_ino h =? i) (hnds s) = 0 /\ count (fun p => p =? i) (pins s) = 0).
    { pose proof (c_refs _ _ C _ _ EI). pose proof (count_nonneg (fun h => h_ino h =? i) (hnds s)).
      pose proof (count_nonneg (fun p => p =? i) (pins s)). lia. }
    destruct RC as [RH RP].
    assert (RY0 : i_refs y = 0) by (rewrite RY, (c_refs _ _ C _ _ EI); lia).
    destruct (destroy_ok dbg NAMEMAX s3 i y C3 EY NLY RY0) as [DS CK].
    { intros _ f HF. apply IN3 in HF. tauto. }
    rewrite DS. cbn [bind]. exists (kfree s3 i), 0. split; [reflexivity|].
    assert (SHK : forall j, j <> i -> match ino s j, ino (kfree s3 i) j with
          | Some x, Some y => same x y | None, None => True | _, _ => False end).
    { intros j NE. unfold kfree. cbn. rewrite fupd_other by auto. apply SH. }
    assert (OLD : forall j z, ino (kfree s3 i) j = Some z -> exists w, ino s j = Some w /\ same w z /\ j <> i).
    { intros j z Ez. assert (NE : j <> i).
      { intros ->. unfold kfree in Ez. cbn in Ez. rewrite fupd_same in Ez. discriminate. }
      specialize (SHK j NE). rewrite Ez in SHK. destruct (ino s j); [eauto|contradiction]. }
    assert (NEW : forall j w, j <> i -> ino s j = Some w -> exists z, ino (kfree s3 i) j = Some z /\ same w z).
    { intros j w NE Ew. specialize (SHK j NE). rewrite Ew in SHK. destruct (ino (kfree s3 i) j) as [z|]; [eauto|contradiction]. }
    assert (INK : forall f, In f (ents (kfree s3 i)) <-> In f (ents s) /\ e_dir f <> i /\ e_tgt f <> i) by exact IN3.
    assert (PAR : forall g G, ino s g = Some G -> i_type G = FDir -> i_parent G <> i).
    { intros g G EG TG. destruct (Z.eq_dec g ROOT) as [-> | NRT]; [|eapply NCH; eauto].
      destruct (t_root _ T) as (R & ER & TR & PR). congruence. }
    split.
    { split; [exact CK|]. constructor.
      - destruct (t_root _ T) as (R & ER & TR & PR). destruct (NEW ROOT R) as (z & Ez & Sz); auto.
        exists z. unfold same in Sz. intuition congruence.
      - intros j z Ez Tz. destruct (OLD _ _ Ez) as (w & Ew & Sw & NE).
        destruct (t_dot _ T j w Ew) as (f & (F1 & F2 & F3) & F4); [unfold same in Sw; intuition congruence|].
        exists f. split; [|exact F4]. split; [apply INK; repeat split; congruence|auto].
      - intros j z Ez Tz. destruct (OLD _ _ Ez) as (w & Ew & Sw & NE).
        assert (Tw : i_type w = FDir) by (unfold same in Sw; intuition congruence).
        destruct (t_dotdot _ T j w Ew Tw) as (f & (F1 & F2 & F3) & F4).
        pose proof (PAR j w Ew Tw).
        exists f. split; [|unfold same in Sw; intuition congruence]. split; [apply INK; repeat split; congruence|auto].
      - intros j z Ez Tz NRT. destruct (OLD _ _ Ez) as (w & Ew & Sw & NE).
        assert (Tw : i_type w = FDir) by (unfold same in Sw; intuition congruence).
        destruct (t_parent _ T j w Ew Tw NRT) as [(v & Ev & Tv) L].
        assert (PW : i_parent w = i_parent z) by (unfold same in Sw; intuition congruence). rewrite <- PW.
        split; [|exact L]. destruct (NEW _ _ (PAR j w Ew Tw) Ev) as (u & Eu & Su). exists u. unfold same in Su. intuition congruence.
      - intros j z Ez Tz NRT. destruct (OLD _ _ Ez) as (w & Ew & Sw & NE).
        assert (Tw : i_type w = FDir) by (unfold same in Sw; intuition congruence).
        destruct (t_name _ T j w Ew Tw NRT) as (f & F1 & F2 & F3 & F4). pose proof (PAR j w Ew Tw).
        exists f. split; [apply INK; repeat split; congruence|]. unfold same in Sw. intuition congruence.
      - intros f z HF Ez Tz NF. apply INK in HF as (F1 & F2 & F3). destruct (OLD _ _ Ez) as (w & Ew & Sw & NE).
        assert (Tw : i_type w = FDir) by (unfold same in Sw; intuition congruence).
        destruct (t_only _ T f w F1 Ew Tw NF). unfold same in Sw. intuition congruence.
      - intros f g z HF HG EQ Ez Tz NF NG. apply INK in HF as (F1 & F2 & F3). apply INK in HG as (G1 & G2 & G3).
        destruct (OLD _ _ Ez) as (w & Ew & Sw & NE).
        assert (Tw : i_type w = FDir) by (unfold same in Sw; intuition congruence).
        apply (t_uniq _ T f g w); auto.
      - intros j z Ez. destruct (OLD _ _ Ez) as (w & Ew & Sw & NE).
        destruct (i_type w) eqn:Tw.
        2:{ left. destruct (t_dot _ T j w Ew Tw) as (f & (F1 & F2 & F3) & F4). exists f. split; [|exact F4].
            apply INK. repeat split; congruence. }
        all: destruct (t_live _ T _ _ Ew) as [(f & F1 & F2) | R]; [left|right; unfold same in Sw; intuition congruence].
        all: exists f; split; [|exact F2]; apply INK; split; [exact F1|]; split; [|congruence]; intros F3.
        all: destruct (ONLY f F1 F3) as [-> | ->]; [congruence|].
        all: destruct PD as (v & Ev & Tv); congruence. }
    split.
    { eapply ev_trans; [apply (c_idlt _ _ C)|exact EV2|].
      eapply ev_trans; [apply (c_idlt _ _ C2)|exact EV3|]. apply ev_same; auto. cbn. lia. }
    split; [congruence|]. intros _. exists i. split; [reflexivity|]. unfold removed_dir.
    split; [exact ND|]. split; [exact NR|]. split; [exact DI|].
    split; [exists Ix; auto|]. split; [exists e; split; [split; auto|reflexivity]|].
    split; [intros f F1 F2; destruct (ONLY f F1 F2) as [-> | ->]; [left|right]; assumption|].
    split.
    { intros h HI EQ. assert (0 < count (fun h => h_ino h =? i) (hnds s)); [|lia]. apply count_pos. exists h. split; [exact HI|lia]. }
    split.
    { intros HI. assert (0 < count (fun p => p =? i) (pins s)); [|lia]. apply count_pos. exists i. split; [exact HI|lia]. }
    split.
    { intros f F1 F2 F3. destruct (in_dec Z.eq_dec (e_id f) (map e_id (ents s3))) as [HI | HI].
      - apply in_map_iff in HI as (g & G1 & G2). apply IN3 in G2 as (G2 & G3 & G4).
        assert (f = g) by (eapply (NoDup_key _ _ _ _ (c_ids _ _ C)); auto). congruence.
      - assert (FE : e_id f = e_id e).
        { destruct (Z.eq_dec (e_id f) (e_id e)) as [|NEQ]; [assumption|]. exfalso. apply HI. apply in_map.
          rewrite EN3, in_remove, IN2. auto. }
        assert (f = e) by (eapply (NoDup_key _ _ _ _ (c_ids _ _ C)); auto). subst f. split; auto. }
    split; [exact INK|]. split; [unfold kfree; cbn; apply fupd_same|]. split; [exact SHK|]. cbn. congruence.
  Qed.

  (** ** rename *)
  Lemma tree_rename s s' e new : tree s -> shape s s' -> In e (ents s) ->
    e_dir new = e_dir e -> e_tgt new = e_tgt e -> ~ dots (e_name e) -> ~ dots (e_name new) ->
    (forall f, In f (ents s') <-> (In f (ents s) /\ f <> e) \/ f = new) -> tree s'.
  Proof.
    intros T SH HE ND NT DE DN IN'.
    assert (OLD : forall j z, ino s' j = Some z -> exists w, ino s j = Some w /\ same w z)
      by (intros; eapply shape_some'; eauto).
    assert (NEW : forall j w, ino s j = Some w -> exists z, ino s' j = Some z /\ same w z)
      by (intros; eapply shape_some; eauto).
    constructor.
    - destruct (t_root _ T) as (R & ER & TR & PR). destruct (NEW ROOT R) as (z & Ez & Sz); auto.
      exists z. unfold same in Sz. intuition congruence.
    - intros j z Ez Tz. destruct (OLD _ _ Ez) as (w & Ew & Sw).
      destruct (t_dot _ T j w Ew) as (f & (F1 & F2 & F3) & F4); [unfold same in Sw; intuition congruence|].
      exists f. split; [|exact F4]. split; [|auto]. apply IN'. left. split; [exact F1|].
      intros ->. apply DE. left. exact F3.
    - intros j z Ez Tz. destruct (OLD _ _ Ez) as (w & Ew & Sw).
      assert (Tw : i_type w = FDir) by (unfold same in Sw; intuition congruence).
      destruct (t_dotdot _ T j w Ew Tw) as (f & (F1 & F2 & F3) & F4).
      exists f. split; [|unfold same in Sw; intuition congruence]. split; [|auto]. apply IN'. left. split; [exact F1|].
      intros ->. apply DE. right. exact F3.
    - intros j z Ez Tz NRT. destruct (OLD _ _ Ez) as (w & Ew & Sw).
      assert (Tw : i_type w = FDir) by (unfold same in Sw; intuition congruence).
      destruct (t_parent _ T j w Ew Tw NRT) as [PD L].
      assert (PW : i_parent w = i_parent z) by (unfold same in Sw; intuition congruence). rewrite <- PW.
      split; [|exact L]. eapply shape_dir; eauto.
    - intros j z Ez Tz NRT. destruct (OLD _ _ Ez) as (w & Ew & Sw).
      assert (Tw : i_type w = FDir) by (unfold same in Sw; intuition congruence).
      assert (PW : i_parent w = i_parent z) by (unfold same in Sw; intuition congruence). rewrite <- PW.
      destruct (t_name _ T j w Ew Tw NRT) as (f & F1 & F2 & F3 & F4).
      destruct (Z.eq_dec (e_tgt e) j) as [EJ | NJ].
      + assert (f = e) by (apply (t_uniq _ T f e w); congruence). subst f.
        exists new. split; [apply IN'; auto|]. split; [congruence|]. split; [exact DN|congruence].
      + exists f. split; [apply IN'; left; split; [exact F1|congruence]|]. auto.
    - intros f z HF Ez Tz NF. destruct (OLD _ _ Ez) as (w & Ew & Sw).
      assert (Tw : i_type w = FDir) by (unfold same in Sw; intuition congruence).
      assert (PW : i_parent w = i_parent z) by (unfold same in Sw; intuition congruence). rewrite <- PW.
      apply IN' in HF as [[F1 F2] | ->]; [apply (t_only _ T f w); auto|].
      rewrite ND, NT in *. apply (t_only _ T e w); auto.
    - intros f g z HF HG EQ Ez Tz NF NG. destruct (OLD _ _ Ez) as (w & Ew & Sw).
      assert (Tw : i_type w = FDir) by (unfold same in Sw; intuition congruence).
      apply IN' in HF as [[F1 F2] | ->]; apply IN' in HG as [[G1 G2] | ->].
      + apply (t_uniq _ T f g w); auto.
      + exfalso. apply F2. apply (t_uniq _ T f e w); auto. congruence.
      + exfalso. apply G2. apply (t_uniq _ T g e w); auto; congruence.
      + reflexivity.
    - intros j z Ez. destruct (OLD _ _ Ez) as (w & Ew & Sw).
      destruct (t_live _ T _ _ Ew) as [(f & F1 & F2) | R]; [left|right; unfold same in Sw; intuition congruence].
      destruct (Z.eq_dec (e_tgt e) j) as [EJ | NJ].
      + exists new. split; [apply IN'; auto|congruence].
      + exists f. split; [apply IN'; left; split; [exact F1|congruence]|exact F2].
  Qed.

  Lemma finish_ok s a d' n' last e x : wf s -> In e (ents s) -> ~ dots (e_name e) -> ino s (e_tgt e) = Some x ->
    is_dir s d' -> (last = n' \/ last = n' ++ [SLASH]) -> n' <> [] -> ~ In SLASH n' -> zlen last + 1 <= NAMEMAX ->
    (forall f, ~ named s d' n' f) -> (e_dir e = d' \/ i_type x <> FDir) ->
    exists s' rc,
      bind (add_entry NAMEMAX s a d' last (e_tgt e)) (fun s2 rc =>
          if negb (rc =? 0) then ok s2 rc
          else bind (remove_entry s2 (e_dir e) (Some (e_id e))) (fun s3 _ => ok s3 0)) = Ok s' rc [] /\
      wf s' /\ ev s s' /\
      (a = false -> rc = ENOSPC /\ s' = s) /\
      (a = true -> rc = 0 /\ shape s s' /\
         (forall f, In f (ents s') <-> (In f (ents s) /\ f <> e) \/ f = mkE (nexte s) d' n' (e_tgt e))).
  Proof.
    intros W HE ND EX HD LN N1 N2 LL FR CASE. pose proof W as [C T]. destruct a.
    2:{ rewrite add_fail; auto; [|eapply last_nonempty; eauto]. cbn [bind]. change (negb (ENOSPC =? 0)) with true. cbv iota.
        exists s, ENOSPC. split; [reflexivity|]. split; [exact W|]. split; [apply ev_same; auto; lia|].
        split; [auto|discriminate]. }
    destruct (add_ok NAMEMAX s d' last n' (e_tgt e) C HD) as (s2 & A2 & C2 & SH2 & EN2 & F1 & F2 & F3 & F4 & F5 & EV2); eauto.
    rewrite A2. cbn [bind]. change (negb (0 =? 0)) with false. cbv iota.
    assert (HE2 : In e (ents s2)) by (rewrite EN2; apply in_or_app; auto).
    destruct (remove_ok dbg NAMEMAX s2 e C2 HE2) as (s3 & R3 & C3 & SH3 & EN3 & K1 & K2 & K3 & K4 & K5 & EV3).
    rewrite R3. cbn [bind]. exists s3, 0. split; [reflexivity|].
    set (new := mkE (nexte s) d' n' (e_tgt e)) in *.
    assert (NE : new <> e) by (intros NEQ; apply (c_idlt _ _ C) in HE; rewrite <- NEQ in HE; cbn in HE; lia).
    assert (IN3 : forall f, In f (ents s3) <-> (In f (ents s) /\ f <> e) \/ f = new).
    { intros f. rewrite EN3, ents_without by assumption. rewrite EN2, in_app_iff. cbn. split.
      - intros [[G | [<- | []]] G2]; auto.
      - intros [[G G2] | ->]; auto. }
    assert (SH : shape s s3) by (eapply shape_trans; eauto).
    assert (DN : ~ dots (e_name new)) by (eapply fresh_not_dots; eauto).
    split.
    { split; [exact C3|]. destruct CASE as [SD | NF].
      - eapply (tree_rename s s3 e new); eauto.
      - apply (tree_keep s); auto using shape_dirs.
        + intros f (y & Ey & Ty). rewrite IN3. split.
          * intros HF. left. split; [exact HF|]. intros ->. congruence.
          * intros [[HF _] | ->]; [exact HF|]. cbn in Ey. congruence.
        + intros j z Ez. destruct (shape_some' _ _ _ _ SH Ez) as (w & Ew & Sw).
          destruct (t_live _ T _ _ Ew) as [(f & G1 & G2) | R]; [left|right; unfold same in Sw; intuition congruence].
          destruct (Z.eq_dec (e_tgt e) j) as [EJ | NJ].
          * exists new. split; [apply IN3; auto|exact EJ].
          * exists f. split; [apply IN3; left; split; [exact G1|congruence]|exact G2]. }
    split; [eapply ev_trans; [apply (c_idlt _ _ C)|exact EV2|exact EV3]|].
    split; [discriminate|]. intros _. split; [reflexivity|]. split; [exact SH|exact IN3].
  Qed.

  (** What a successful rename did *)
  Definition renamed (s s' : st) (d : Z) (n : list Z) (d' : Z) (n' : list Z) (e : entry) : Prop :=
    named s d n e /\
    (forall f, In f (ents s') <->
       f = mkE (nexte s) d' n' (e_tgt e) \/
       (In f (ents s) /\ f <> e /\ ~ named s d' n' f /\
        forall r, named s d' n' r -> is_dir s (e_tgt r) -> e_dir f <> e_tgt r)) /\
    (forall i x, ino s i = Some x -> (forall r, named s d' n' r -> e_tgt r <> i) ->
       exists y, ino s' i = Some y /\ same x y) /\
    (exists x y, ino s (e_tgt e) = Some x /\ ino s' (e_tgt e) = Some y /\ same x y) /\
    (forall i y, ino s' i = Some y -> exists x, ino s i = Some x /\ same x y) /\
    (forall r, named s d' n' r -> is_dir s (e_tgt r) ->
       is_dir s (e_tgt e) /\ (forall f, In f (ents s) -> e_dir f = e_tgt r -> dots (e_name f)) /\
       (forall h, In h (hnds s) -> h_ino h <> e_tgt r) /\ ~ In (e_tgt r) (pins s)).

  Lemma rename_ok s al d n d' n' p q : wf s -> is_dir s d -> is_dir s d' -> okp s d n p -> okp s d' n' q ->
    ~ dots n -> ~ dots n' -> n' <> [] -> ~ In SLASH n' -> ~ (d = d' /\ n = n') ->
    (d = d' \/ forall e T, named s d n e -> ino s (e_tgt e) = Some T -> i_type T <> FDir) ->
    exists s' rc, do_rename dbg NAMEMAX s al p q = Ok s' rc [] /\ wf s' /\ ev s s' /\
      (rc = 0 -> exists e, renamed s s' d n d' n' e) /\
      (rc <> 0 -> al 3%nat = true \/ p_ino q = None -> s' = s).
  Proof.
    intros W HD HD' (P1 & P2 & P3 & P4) OQ ND ND' N1 N2 DIFF CASE. pose proof W as [C T].
    pose proof OQ as (Q1 & Q2 & Q3 & Q4).
    assert (SAME : forall rc, rc <> 0 -> exists s' rc', Ok s rc [] = Ok s' rc' [] /\ wf s' /\ ev s s' /\
      (rc' = 0 -> exists e, renamed s s' d n d' n' e) /\
      (rc' <> 0 -> al 3%nat = true \/ p_ino q = None -> s' = s)).
    { intros rc NZ. exists s, rc. split; [reflexivity|]. split; [exact W|]. split; [apply ev_same; auto; lia|].
      split; [contradiction|auto]. }
    unfold do_rename, ok. destruct P4 as [(PI & _) | (e & NE & PI & PE)]; rewrite PI, ?PE; [apply SAME; discriminate|].
    pose proof NE as (E1 & E2 & E3). destruct (c_tgt _ _ C _ E1) as (x & EX).
    assert (CASE' : e_dir e = d' \/ i_type x <> FDir).
    { destruct CASE as [CS | CS]; [left; congruence|right; eauto]. }
    destruct Q4 as [(QI & QE & FR) | (r & NR & QI & QE)]; rewrite QI in *.
    - destruct (finish_ok s (al 3%nat) d' n' (p_last q) e x W E1) as (s' & rc & EQ & W' & EV & FF & FT); auto.
      { rewrite E3. exact ND. }
      unfold ok in EQ. rewrite E2 in EQ. rewrite Q1, P1, EQ. exists s', rc. split; [reflexivity|]. split; [exact W'|].
      split; [exact EV|]. destruct (al 3%nat).
      + destruct (FT eq_refl) as (-> & SH & IN'). split; [|congruence]. intros _. exists e. unfold renamed.
        split; [exact NE|]. split.
        { intros f. rewrite IN'. split.
          - intros [[G1 G2] | ->]; [right|auto]. split; [exact G1|]. split; [exact G2|]. split; [apply FR|].
            intros r R. exfalso. eapply FR; eauto.
          - intros [-> | (G1 & G2 & _)]; auto. }
        split; [intros i y Ey _; eapply shape_some; eauto|]. split.
        { destruct (shape_some _ _ _ _ SH EX) as (y & Ey & Sy). exists x, y. auto. }
        split; [intros i y Ey; eapply shape_some'; eauto|]. intros r R. exfalso. eapply FR; eauto.
      + destruct (FF eq_refl) as (-> & ->). split; [discriminate|auto].
    - destruct (c_tgt _ _ C (r)) as (y & EY); [apply NR|]. rewrite EX, EY.
      assert (ER : e <> r).
      { intros ->. apply DIFF. destruct NR as (_ & R2 & R3). split; congruence. }
      assert (UN : forall f, named s d' n' f -> f = r) by (intros f F; eapply named_uniq; eauto).
      destruct (ftype_eqb (i_type y) FDir) eqn:TY.
      + apply ftype_eqb_iff in TY. destruct (ftype_eqb (i_type x) FDir) eqn:TX; cbn [negb]; [|apply SAME; discriminate].
        apply ftype_eqb_iff in TX. destruct (i_num y >? 2); [apply SAME; discriminate|].
        destruct (rmdir_ok s d' n' q W HD' OQ) as (s1 & rc & EQ & W1 & EV1 & FF & FT).
        { intros [_ ->]. apply ND'. right. reflexivity. }
        { intros ->. exfalso. apply ND'. left. reflexivity. }
        unfold ok in EQ. rewrite EQ. cbn [bind]. destruct (rc =? 0) eqn:RC; cbn [negb].
        2:{ exists s1, rc. split; [reflexivity|]. split; [exact W1|]. split; [exact EV1|]. split; [lia|]. intros _ _. apply FF. lia. }
        destruct FT as (i & PI' & _ & NRT & DI & _ & _ & EMP & HN & PN & OTH & IN1 & INI & SH1 & NX1); [lia|].
        assert (i = e_tgt r) by congruence. subst i.
        assert (SD : e_dir e = d') by tauto.
        assert (TE : e_tgt e <> e_tgt r).
        { intros EQT. apply ER. apply (t_uniq _ T e r x); auto; try apply NR; try congruence.
          destruct NR as (_ & _ & ->). exact ND'. }
        assert (E1' : In e (ents s1)) by (apply IN1; split; [exact E1|]; split; [congruence|exact TE]).
        assert (EX1 : exists x1, ino s1 (e_tgt e) = Some x1 /\ same x x1).
        { specialize (SH1 _ TE). rewrite EX in SH1. destruct (ino s1 (e_tgt e)) as [x1|]; [eauto|contradiction]. }
        destruct EX1 as (x1 & EX1 & SX1).
        assert (HD1 : is_dir s1 d').
        { destruct HD' as (D & ED & TD). specialize (SH1 _ DI). rewrite ED in SH1.
          destruct (ino s1 d') as [D1|] eqn:ED1; [|contradiction]. exists D1. unfold same in SH1. intuition congruence. }
        destruct (finish_ok s1 (al 3%nat) d' n' (p_last q) e x1 W1 E1') as (s' & rc' & EQ' & W' & EV & FF' & FT'); auto.
        { rewrite E3. exact ND. }
        { intros f (G1 & G2 & G3). apply IN1 in G1 as (G1 & _ & G4). apply G4. rewrite (UN f); [reflexivity|]. split; auto. }
        unfold ok in EQ'. rewrite E2 in EQ'. rewrite Q1, P1, EQ'. exists s', rc'. split; [reflexivity|]. split; [exact W'|].
        split; [eapply ev_trans; [apply (c_idlt _ _ C)|exact EV1|exact EV]|]. split.
        2:{ intros NZ [A | A]; [|discriminate]. destruct (FT' A) as (Z0 & _). lia. }
        intros Z0. destruct (al 3%nat); [|destruct (FF' eq_refl) as (B & _); rewrite B in Z0; discriminate].
        destruct (FT' eq_refl) as (_ & SH & IN'). exists e. unfold renamed. split; [exact NE|]. split; [|split; [|split; [|split]]].
        * intros f. rewrite IN', IN1, NX1. split.
          -- intros [[(G1 & G2 & G3) G4] | ->]; [right|auto]. split; [exact G1|]. split; [exact G4|]. split.
             ++ intros F. apply G3. rewrite (UN f F). reflexivity.
             ++ intros g G _. rewrite (UN g G). exact G2.
          -- intros [-> | (G1 & G2 & G3 & G4)]; [auto|left]. split; [|exact G2]. split; [exact G1|].
             assert (DF : e_dir f <> e_tgt r) by (apply G4; [exact NR|exists y; auto]).
             split; [exact DF|]. intros G5. apply G3. apply OTH; auto.
        * intros i z Ez NI. assert (NI' : i <> e_tgt r) by (intros ->; eapply NI; eauto).
          specialize (SH1 _ NI'). rewrite Ez in SH1. destruct (ino s1 i) as [z1|] eqn:Ez1; [|contradiction].
          destruct (shape_some _ _ _ _ SH Ez1) as (z2 & Ez2 & Sz2). exists z2. split; [exact Ez2|]. eapply same_trans; eauto.
        * destruct (shape_some _ _ _ _ SH EX1) as (z2 & Ez2 & Sz2). exists x, z2. split; [exact EX|]. split; [exact Ez2|].
          eapply same_trans; eauto.
        * intros i z Ez. destruct (shape_some' _ _ _ _ SH Ez) as (z1 & Ez1 & Sz1).
          assert (NI' : i <> e_tgt r) by congruence. specialize (SH1 _ NI'). rewrite Ez1 in SH1.
          destruct (ino s i) as [z0|]; [|contradiction]. exists z0. split; [reflexivity|]. eapply same_trans; eauto.
        * intros g G _. rewrite (UN g G). split; [exists x; auto|]. split; [exact EMP|]. split; [exact HN|exact PN].
      + destruct (do_unlink_ok s d' n' q W HD' OQ) as (s1 & rc & EQ & W1 & EV1 & FF & FT).
        unfold ok in EQ. rewrite EQ. cbn [bind]. destruct (rc =? 0) eqn:RC; cbn [negb].
        2:{ exists s1, rc. split; [reflexivity|]. split; [exact W1|]. split; [exact EV1|]. split; [lia|]. intros _ _. apply FF. lia. }
        destruct FT as (r' & y' & _ & NR' & EY' & TY' & IN1 & FREED & SY & SH1 & NX1); [lia|].
        apply UN in NR'. subst r'.
        assert (E1' : In e (ents s1)) by (apply IN1; auto).
        destruct W1 as [C1 T1]. destruct (c_tgt _ _ C1 _ E1') as (x1 & EX1).
        assert (SX1 : same x x1).
        { destruct (Z.eq_dec (e_tgt e) (e_tgt r)) as [TE | TE].
          - assert (y' = x) by congruence. subst y'. apply SY. congruence.
          - specialize (SH1 _ TE). rewrite EX, EX1 in SH1. exact SH1. }
        assert (HD1 : is_dir s1 d').
        { destruct HD' as (D & ED & TD). assert (DI : d' <> e_tgt r) by congruence.
          specialize (SH1 _ DI). rewrite ED in SH1.
          destruct (ino s1 d') as [D1|] eqn:ED1; [|contradiction]. exists D1. unfold same in SH1. intuition congruence. }
        destruct (finish_ok s1 (al 3%nat) d' n' (p_last q) e x1 (conj C1 T1) E1') as (s' & rc' & EQ' & W' & EV & FF' & FT'); auto.
        { rewrite E3. exact ND. }
        { intros f (G1 & G2 & G3). apply IN1 in G1 as (G1 & G4). apply G4. apply UN. split; auto. }
        { unfold same in SX1. destruct SX1 as (SX1 & _). rewrite <- SX1. exact CASE'. }
        unfold ok in EQ'. rewrite E2 in EQ'. rewrite Q1, P1, EQ'. exists s', rc'. split; [reflexivity|]. split; [exact W'|].
        split; [eapply ev_trans; [apply (c_idlt _ _ C)|exact EV1|exact EV]|]. split.
        2:{ intros NZ [A | A]; [|discriminate]. destruct (FT' A) as (Z0 & _). lia. }
        intros Z0. destruct (al 3%nat); [|destruct (FF' eq_refl) as (B & _); rewrite B in Z0; discriminate].
        destruct (FT' eq_refl) as (_ & SH & IN'). exists e. unfold renamed. split; [exact NE|]. split; [|split; [|split; [|split]]].
        * intros f. rewrite IN', IN1, NX1. split.
          -- intros [[(G1 & G2) G4] | ->]; [right|auto]. split; [exact G1|]. split; [exact G4|]. split.
             ++ intros F. apply G2. apply UN. exact F.
             ++ intros g G (z & Ez & Tz). apply UN in G. subst g. congruence.
          -- intros [-> | (G1 & G2 & G3 & G4)]; [auto|left]. split; [|exact G2]. split; [exact G1|].
             intros ->. apply G3. exact NR.
        * intros i z Ez NI. assert (NI' : i <> e_tgt r) by (intros ->; eapply NI; eauto).
          specialize (SH1 _ NI'). rewrite Ez in SH1. destruct (ino s1 i) as [z1|] eqn:Ez1; [|contradiction].
          destruct (shape_some _ _ _ _ SH Ez1) as (z2 & Ez2 & Sz2). exists z2. split; [exact Ez2|]. eapply same_trans; eauto.
        * destruct (shape_some _ _ _ _ SH EX1) as (z2 & Ez2 & Sz2). exists x, z2. split; [exact EX|]. split; [exact Ez2|].
          eapply same_trans; eauto.
        * intros i z Ez. destruct (shape_some' _ _ _ _ SH Ez) as (z1 & Ez1 & Sz1).
          destruct (Z.eq_dec i (e_tgt r)) as [-> | NI'].
          -- exists y'. split; [exact EY'|]. eapply same_trans; [apply SY; exact Ez1|exact Sz1].
          -- specialize (SH1 _ NI'). rewrite Ez1 in SH1.
             destruct (ino s i) as [z0|]; [|contradiction]. exists z0. split; [reflexivity|]. eapply same_trans; eauto.
        * intros g G (z & Ez & Tz). apply UN in G. subst g. congruence.
  Qed.
End P.
