From Verif Require Import Lib Wait_Model Wait_Spec.

Ltac fu := unfold fupd in *; repeat match goal with
  | |- context [?a =? ?b] => let E := fresh "E" in destruct (a =? b) eqn:E; [apply Z.eqb_eq in E; try subst|apply Z.eqb_neq in E]
  | H : context [?a =? ?b] |- _ => let E := fresh "E" in destruct (a =? b) eqn:E; [apply Z.eqb_eq in E; try subst|apply Z.eqb_neq in E]
  end.

Lemma st_eqb_eq a b : st_eqb a b = true <-> a = b.
Proof. destruct a, b; cbn; split; congruence. Qed.
Lemma st_eqb_neq a b : st_eqb a b = false <-> a <> b.
Proof. destruct a, b; cbn; split; congruence. Qed.
Lemma in_del x y l : In x (del y l) <-> In x l /\ x <> y.
Proof. unfold del. rewrite filter_In, negb_true_iff, Z.eqb_neq. tauto. Qed.
Lemma nodup_del y l : NoDup l -> NoDup (del y l).
Proof. apply NoDup_filter. Qed.
Lemma nodup_snoc (x : Z) l : NoDup l -> ~ In x l -> NoDup (l ++ [x]).
Proof.
  intros N H. induction l as [|y l IH]; cbn; [constructor; auto; constructor|]. apply NoDup_cons_iff in N. constructor.
  - rewrite in_app_iff. cbn. intros [K|[K|[]]]; [tauto|]. subst. apply H. left. reflexivity.
  - apply IH; [tauto|]. intros K. apply H. right. exact K.
Qed.

(** [x]: the process that is exiting, -1 if none *)
Record inv (x : Z) (s : st) : Prop := {
  i_pos : forall c, liv s c = true -> 1 <= c;
  i_init : liv s 1 = true /\ ppid (pr s 1) = 0 /\ stt (pr s 1) <> Zomb /\ vfk (pr s 1) = false;
  i_kids : forall p c, In c (kids s p) <-> child s p c;
  i_nodup : forall p, NoDup (kids s p);
  i_par : forall c, liv s c = true -> c <> 1 -> 1 <= ppid (pr s c) /\ liv s (ppid (pr s c)) = true /\
                    (stt (pr s (ppid (pr s c))) <> Zomb \/ ppid (pr s c) = x);
  i_self : forall c, liv s c = true -> ppid (pr s c) <> c;
  i_wo : forall p, liv s p = true -> wo (pr s p) <> None -> stt (pr s p) = Sleep;
  i_wts : forall t w, In w (wts s t) <-> liv s w = true /\ 0 < t /\ exists o, wo (pr s w) = Some (t, o);
  i_wnd : forall t, NoDup (wts s t);
  i_tgt : forall w t o, liv s w = true -> wo (pr s w) = Some (t, o) -> 0 < t -> liv s t = true /\ ppid (pr s t) = w;
  i_vfk : forall c, liv s c = true -> stt (pr s c) <> Zomb \/ c = x -> vfk (pr s c) = true ->
            stt (pr s (ppid (pr s c))) = Stop /\ vfs (pr s (ppid (pr s c))) = true;
  i_vfu : forall c d, liv s c = true -> liv s d = true -> stt (pr s c) <> Zomb \/ c = x -> stt (pr s d) <> Zomb \/ d = x ->
            vfk (pr s c) = true -> vfk (pr s d) = true -> ppid (pr s c) = ppid (pr s d) -> c = d;
  i_vfs : forall p, liv s p = true -> vfs (pr s p) = true -> stt (pr s p) = Stop
}.

(** Changing the fields of one process *)
Lemma upd_inv x s t q : inv x s -> liv s t = true -> ppid q = ppid (pr s t) -> wo q = wo (pr s t) ->
  (stt q = Zomb -> stt (pr s t) = Zomb \/ t = x) -> (stt (pr s t) = Zomb -> stt q = Zomb) -> (t = 1 -> stt q <> Zomb) ->
  (wo q <> None -> stt q = Sleep) -> (vfs q = true -> stt q = Stop) -> (vfs (pr s t) = true -> vfs q = true) ->
  (vfk q = true -> vfk (pr s t) = true) -> inv x (upd s t q).
Proof.
  intros I Lt Hp Hw Z1 Z2 Z3 W1 V1 V2 V3.
  assert (PP : forall c, ppid (fupd (pr s) t q c) = ppid (pr s c)) by (intros; fu; auto).
  assert (WW : forall c, wo (fupd (pr s) t q c) = wo (pr s c)) by (intros; fu; auto).
  assert (VV : forall c, vfk (fupd (pr s) t q c) = true -> vfk (pr s c) = true) by (intros c; fu; auto).
  assert (ZZ : forall c, stt (fupd (pr s) t q c) <> Zomb \/ c = x -> stt (pr s c) <> Zomb \/ c = x).
  { intros c [H|H]; [|auto]. left. fu; auto. }
  constructor; cbn [upd pr liv kids wts]; unfold child; cbn [upd pr liv kids wts].
  - apply I.
  - rewrite PP. destruct (i_init x s I) as (A & B & C & D). repeat split; auto.
    + fu; auto.
    + destruct (vfk (fupd (pr s) t q 1)) eqn:E; [|reflexivity]. apply VV in E. congruence.
  - intros p c. rewrite PP. apply I.
  - apply I.
  - intros c Hc N. rewrite PP. destruct (i_par x s I c Hc N) as (A & B & C). split; [exact A|]. split; [exact B|].
    destruct C as [C|C]; [|auto]. destruct (Z.eq_dec (ppid (pr s c)) x); [auto|left]. unfold fupd. destruct (Z.eqb_spec (ppid (pr s c)) t) as [E|E]; [|exact C].
    rewrite E in *. intros K. destruct (Z1 K); auto.
  - intros c. rewrite PP. apply I.
  - intros p Hp2 Hw2. rewrite WW in Hw2. pose proof (i_wo x s I p Hp2 Hw2). fu; auto. apply W1. rewrite Hw. exact Hw2.
  - intros t0 w. rewrite WW. apply I.
  - apply I.
  - intros w t0 o Hl Ho. rewrite WW in Ho. rewrite PP. apply (i_tgt x s I w t0 o Hl Ho).
  - intros c Hc Hz Hv. rewrite PP. destruct (i_vfk x s I c Hc (ZZ c Hz) (VV c Hv)) as [A B]. fu; auto.
  - intros c d Hc Hd Hz1 Hz2 Hv1 Hv2. rewrite !PP. apply (i_vfu x s I); auto.
  - intros p Hp2 Hv. fu; auto. apply (i_vfs x s I p Hp2 Hv).
Qed.

(** Waking up a sleeping task *)
Lemma wake_up_inv x s t : inv x s -> liv s t = true -> stt (pr s t) = Sleep -> inv x (wake_up s t).
Proof.
  intros I Lt St.
  assert (Vs : vfs (pr s t) = false) by (destruct (vfs (pr s t)) eqn:E; [apply (i_vfs x s I t Lt) in E; congruence|reflexivity]).
  set (W := match wo (pr s t) with Some (y, _) => if 0 <? y then fupd (wts s) y (del t (wts s y)) else wts s | None => wts s end).
  assert (E : wake_up s t = mk (fupd (pr s) t (woken (pr s t))) (liv s) (kids s) W (hist s)).
  { unfold wake_up, W. destruct (wo (pr s t)) as [[y o]|]; [destruct (0 <? y)|]; reflexivity. }
  rewrite E. clear E.
  assert (PP : forall c, ppid (fupd (pr s) t (woken (pr s t)) c) = ppid (pr s c)) by (intros; fu; auto).
  assert (VK : forall c, vfk (fupd (pr s) t (woken (pr s t)) c) = vfk (pr s c)) by (intros c; fu; auto).
  assert (VS : forall c, vfs (fupd (pr s) t (woken (pr s t)) c) = vfs (pr s c)) by (intros c; fu; auto).
  assert (SS : forall c, c <> t -> stt (fupd (pr s) t (woken (pr s t)) c) = stt (pr s c)) by (intros c; fu; intros; congruence).
  assert (NZ : stt (woken (pr s t)) <> Zomb) by (cbn; destruct (spend (pr s t)); discriminate).
  assert (ZZ : forall c, stt (fupd (pr s) t (woken (pr s t)) c) <> Zomb \/ c = x -> stt (pr s c) <> Zomb \/ c = x).
  { intros c [H|H]; [|auto]. left. fu; [congruence|exact H]. }
  assert (WW : forall c, wo (fupd (pr s) t (woken (pr s t)) c) = if c =? t then None else wo (pr s c)) by (intros c; fu; auto).
  constructor; cbn [pr liv kids wts]; unfold child; cbn [pr liv kids wts].
  - apply I.
  - rewrite PP, VK. destruct (i_init x s I) as (A & B & C & D). repeat split; auto. fu; auto.
  - intros p c. rewrite PP. apply I.
  - apply I.
  - intros c Hc N. rewrite PP. destruct (i_par x s I c Hc N) as (A & B & C). split; [exact A|]. split; [exact B|].
    destruct C as [C|C]; [|auto]. left. fu; auto.
  - intros c. rewrite PP. apply I.
  - intros p Hp2 Hw2. rewrite WW in Hw2. destruct (p =? t) eqn:Q; [congruence|]. rewrite SS by lia. apply (i_wo x s I p Hp2 Hw2).
  - intros t0 w. rewrite WW. transitivity (In w (wts s t0) /\ w <> t).
    + unfold W. destruct (wo (pr s t)) as [[y o]|] eqn:Ow.
      * destruct (0 <? y) eqn:Y.
        -- unfold fupd. destruct (Z.eqb_spec t0 y) as [->|Ne]; [apply in_del|].
           split; [|tauto]. intros H. split; [exact H|]. intros ->. apply (i_wts x s I) in H. destruct H as (_ & _ & o2 & H). congruence.
        -- split; [|tauto]. intros H. split; [exact H|]. intros ->. apply (i_wts x s I) in H. destruct H as (_ & P & o2 & H). rewrite Ow in H. inversion H. lia.
      * split; [|tauto]. intros H. split; [exact H|]. intros ->. apply (i_wts x s I) in H. destruct H as (_ & _ & o2 & H). congruence.
    + rewrite (i_wts x s I). destruct (Z.eqb_spec w t) as [->|Ne]; [|tauto]. split; [tauto|]. intros (_ & _ & o & H). discriminate.
  - intros t0. unfold W. destruct (wo (pr s t)) as [[y o]|]; [destruct (0 <? y)|]; [|apply I|apply I]. fu; [apply nodup_del|]; apply I.
  - intros w t0 o Hl Ho. rewrite WW in Ho. rewrite PP. destruct (w =? t); [discriminate|]. apply (i_tgt x s I w t0 o Hl Ho).
  - intros c Hc Hz Hv. rewrite PP, VS. rewrite VK in Hv. destruct (i_vfk x s I c Hc (ZZ c Hz) Hv) as [A B].
    split; [|exact B]. rewrite SS; [exact A|]. intros E. rewrite E in A. congruence.
  - intros c d Hc Hd Hz1 Hz2. rewrite !VK, !PP. apply (i_vfu x s I); auto.
  - intros p Hp2. rewrite VS. intros Hv. rewrite SS; [apply (i_vfs x s I p Hp2 Hv)|]. intros ->. congruence.
Qed.

(** What wake-ups change *)
Definition wk (s s' : st) : Prop :=
  liv s' = liv s /\ kids s' = kids s /\ hist s' = hist s /\
  forall w, pr s' w = pr s w \/ (liv s w = true /\ stt (pr s w) = Sleep /\ pr s' w = woken (pr s w)).
Lemma wk_refl s : wk s s.
Proof. repeat split; auto. Qed.
Lemma wk_trans a b c : wk a b -> wk b c -> wk a c.
Proof.
  intros (A1 & A2 & A3 & A4) (B1 & B2 & B3 & B4). repeat split; try congruence. intros w. destruct (A4 w) as [A|(L & A & E)], (B4 w) as [B|(L2 & B & F)].
  - left. congruence.
  - right. rewrite <- A1, <- A. auto.
  - right. rewrite B. auto.
  - exfalso. rewrite E in B. cbn in B. destruct (spend (pr a w)); discriminate.
Qed.
Lemma wk_wake s t : liv s t = true -> stt (pr s t) = Sleep -> wk s (wake_up s t).
Proof.
  intros L H. unfold wake_up, wk. assert (E : forall s1, pr s1 = pr s -> forall w, pr (upd s1 t (woken (pr s1 t))) w = pr s w \/ (liv s w = true /\ stt (pr s w) = Sleep /\ pr (upd s1 t (woken (pr s1 t))) w = woken (pr s w))).
  { intros s1 E w. cbn [upd pr]. rewrite E. fu; auto. }
  destruct (wo (pr s t)) as [[y o]|]; [destruct (0 <? y)|]; (split; [reflexivity|]; split; [reflexivity|]; split; [reflexivity|]); apply E; reflexivity.
Qed.
Section Wk.
  Variables s s' : st.
  Hypothesis H : wk s s'.
  Ltac w t := destruct H as (_ & _ & _ & K); destruct (K t) as [->|(? & ? & ->)]; cbn; auto.
  Lemma wk_ppid t : ppid (pr s' t) = ppid (pr s t). Proof. w t. Qed.
  Lemma wk_pgid t : pgid (pr s' t) = pgid (pr s t). Proof. w t. Qed.
  Lemma wk_vfk t : vfk (pr s' t) = vfk (pr s t). Proof. w t. Qed.
  Lemma wk_vfs t : vfs (pr s' t) = vfs (pr s t). Proof. w t. Qed.
  Lemma wk_srep t : srep (pr s' t) = srep (pr s t). Proof. w t. Qed.
  Lemma wk_wst t : wst (pr s' t) = wst (pr s t). Proof. w t. Qed.
  Lemma wk_ign t : ign (pr s' t) = ign (pr s t). Proof. w t. Qed.
  Lemma wk_areap t : areap (pr s' t) = areap (pr s t). Proof. w t. Qed.
  Lemma wk_zomb t : stt (pr s' t) = Zomb <-> stt (pr s t) = Zomb.
  Proof. w t; [tauto|]. destruct (spend (pr s t)); split; congruence. Qed.
  Lemma wk_awake t : stt (pr s t) <> Sleep -> pr s' t = pr s t.
  Proof. intros. w t. congruence. Qed.
  Lemma wk_wo t v : wo (pr s' t) = Some v -> pr s' t = pr s t.
  Proof. w t. discriminate. Qed.
  Lemma wk_matches p tid c : matches s' p tid c <-> matches s p tid c.
  Proof. unfold matches, child. rewrite !wk_ppid, !wk_pgid. destruct H as (-> & _). tauto. Qed.
End Wk.

Lemma wake_list_ok x r l : forall s, inv x s -> NoDup l -> (forall w, In w l -> liv s w = true /\ wo (pr s w) <> None) ->
  exists s', wake_list s r l = Some s' /\ inv x s' /\ wk s s' /\
    (forall w, ~ In w l -> pr s' w = pr s w) /\
    forall w t o, In w l -> wo (pr s w) = Some (t, o) -> if good o r then wo (pr s' w) = None else pr s' w = pr s w.
Proof.
  induction l as [|a l IH]; intros s I N H; cbn [wake_list].
  - exists s. split; [reflexivity|]. split; [exact I|]. split; [apply wk_refl|]. split; [auto|]. intros w t o [].
  - apply NoDup_cons_iff in N. destruct N as [Na N]. destruct (H a (or_introl eq_refl)) as [La Wa].
    destruct (wo (pr s a)) as [[t0 o0]|] eqn:Oa; [|congruence].
    assert (Sa : stt (pr s a) = Sleep) by (apply (i_wo x s I a La); congruence). rewrite Sa. cbn [st_eqb andb].
    set (s1 := if good o0 r then wake_up s a else s).
    assert (I1 : inv x s1) by (unfold s1; destruct (good o0 r); [apply wake_up_inv|]; assumption).
    assert (K1 : wk s s1) by (unfold s1; destruct (good o0 r); [apply wk_wake; assumption|apply wk_refl]).
    assert (F1 : forall w, w <> a -> pr s1 w = pr s w).
    { intros w Hw. unfold s1. destruct (good o0 r); [|reflexivity]. unfold wake_up. rewrite Oa. destruct (0 <? t0); cbn [upd pr]; apply fupd_other; exact Hw. }
    assert (G1 : good o0 r = true -> wo (pr s1 a) = None).
    { intros G. unfold s1. rewrite G. unfold wake_up. rewrite Oa. destruct (0 <? t0); cbn [upd pr]; rewrite fupd_same; reflexivity. }
    destruct (IH s1 I1 N) as (s' & E & I' & K' & F' & G').
    { intros w Hw. rewrite F1 by (intros ->; contradiction). destruct K1 as (-> & _). apply H. right. exact Hw. }
    exists s'. split; [exact E|]. split; [exact I'|]. split; [apply (wk_trans s s1 s'); assumption|]. split.
    + intros w Hw. rewrite F' by (intros Q; apply Hw; right; exact Q). apply F1. intros ->. apply Hw. left. reflexivity.
    + intros w t o [<-|Hw] Ow.
      * rewrite Oa in Ow. inversion Ow. subst. rewrite F' by exact Na. destruct (good o r) eqn:G; [apply G1; reflexivity|]. unfold s1. reflexivity.
      * assert (w <> a) by (intros ->; contradiction). specialize (G' w t o Hw). rewrite F1 in G' by assumption. apply G'. exact Ow.
Qed.

Lemma skip_matches s p t tid : child s p t -> skip s p t tid = false <-> matches s p tid t.
Proof.
  intros C. unfold skip, matches. destruct (0 <? tid) eqn:A; [|destruct (tid <? -1) eqn:B; [|destruct (tid =? 0) eqn:D]]; rewrite ?negb_false_iff, ?Z.eqb_eq; split; try intros; repeat split; auto; try apply C; try lia.
Qed.

Lemma wake_waiting_ok x s t r : inv x s -> liv s t = true ->
  exists s', wake_waiting s t r = Some s' /\ inv x s' /\ wk s s' /\
    forall tid o, wo (pr s' (ppid (pr s t))) = Some (tid, o) -> liv s (ppid (pr s t)) = true -> tid <> 0 -> matches s (ppid (pr s t)) tid t -> good o r = false.
Proof.
  intros I Lt. unfold wake_waiting.
  destruct (wake_list_ok x r (wts s t) s I (i_wnd x s I t)) as (s1 & E & I1 & K1 & F1 & G1).
  { intros w Hw. apply (i_wts x s I) in Hw. destruct Hw as (A & _ & o & B). split; [exact A|congruence]. }
  rewrite E. rewrite (wk_ppid s s1 K1). set (p := ppid (pr s t)).
  assert (First : forall tid o, wo (pr s1 p) = Some (tid, o) -> liv s p = true -> 0 < tid -> matches s p tid t -> good o r = false).
  { intros tid o Ow Lp Pt (C & M & _). specialize (M Pt). subst tid. pose proof (wk_wo s s1 K1 p _ Ow) as Eq. rewrite Eq in Ow.
    assert (Hin : In p (wts s t)) by (apply (i_wts x s I); eauto). specialize (G1 p t o Hin Ow). destruct (good o r); [|reflexivity]. rewrite Eq in G1. congruence. }
  destruct (0 <? p) eqn:Pp.
  - destruct (liv s1 p) eqn:Lp; [cbn [negb]|exfalso].
    2:{ destruct K1 as (K & _). rewrite K in Lp. destruct (Z.eq_dec t 1) as [->|N].
        - destruct (i_init x s I) as (_ & B & _). unfold p in *. lia.
        - destruct (i_par x s I t Lt N) as (_ & B & _). fold p in B. congruence. }
    destruct (wo (pr s1 p)) as [[tid o]|] eqn:Ow.
    + destruct (st_eqb (stt (pr s1 p)) Sleep && (tid <? 0) && negb (skip s1 p t tid) && good o r) eqn:C.
      * rewrite !andb_true_iff in C. destruct C as (((C1 & C2) & C3) & C4). apply st_eqb_eq in C1.
        exists (wake_up s1 p). split; [reflexivity|]. split; [apply wake_up_inv; assumption|]. pose proof (wk_wake s1 p Lp C1) as K2. split; [apply (wk_trans s s1); assumption|].
        intros tid' o' O'. exfalso. unfold wake_up in O'. rewrite Ow in O'. destruct (0 <? tid); cbn [upd pr] in O'; rewrite fupd_same in O'; discriminate.
      * exists s1. split; [reflexivity|]. split; [exact I1|]. split; [exact K1|]. intros tid' o' O' L' Nz M. rewrite Ow in O'. inversion O'. subst tid' o'.
        destruct (Z_lt_le_dec 0 tid) as [Q|Q]; [apply (First tid o eq_refl L' Q M)|].
        assert (S1 : st_eqb (stt (pr s1 p)) Sleep = true) by (apply st_eqb_eq, (i_wo x s1 I1 p Lp); congruence).
        assert (S2 : (tid <? 0) = true) by lia.
        assert (S3 : skip s1 p t tid = false).
        { apply skip_matches; [|apply (wk_matches s s1 K1), M]. unfold child. rewrite (wk_ppid s s1 K1). destruct K1 as (-> & _). auto. }
        rewrite S1, S2, S3 in C. exact C.
    + exists s1. split; [reflexivity|]. split; [exact I1|]. split; [exact K1|]. intros tid' o' O'. rewrite Ow in O'. discriminate.
  - exists s1. split; [reflexivity|]. split; [exact I1|]. split; [exact K1|]. intros tid' o' O' L' Nz M. pose proof (i_pos x s I p L'). lia.
Qed.

(** No sleeping waiter has a matching zombie, [ex] excepted *)
Definition zs (Q : Z -> Prop) (ex : Z -> Prop) (s : st) : Prop :=
  forall p tid o c, liv s p = true -> wo (pr s p) = Some (tid, o) -> Q tid -> matches s p tid c -> stt (pr s c) = Zomb -> ex c.
Lemma zs_wk Q ex s s' : wk s s' -> zs Q ex s -> zs Q ex s'.
Proof.
  intros K Z p tid o c L O N M D. pose proof (wk_wo s s' K p _ O) as E. rewrite E in O. apply (wk_matches s s' K) in M. apply (wk_zomb s s' K) in D.
  destruct K as (K & _). rewrite K in L. apply (Z p tid o c); assumption.
Qed.
Lemma zs_weak Q (ex ex' : Z -> Prop) s : (forall c, ex c -> ex' c) -> zs Q ex s -> zs Q ex' s.
Proof. intros H Z p tid o c L O N M D. apply H, (Z p tid o c); assumption. Qed.
(** after wake_waiting the exception is gone *)
Lemma wake_waiting_died (Q : Z -> Prop) x s t (ex : Z -> Prop) : (forall t, Q t -> t <> 0) -> inv x s -> liv s t = true -> zs Q (fun c => c = t \/ ex c) s ->
  exists s', wake_waiting s t died = Some s' /\ inv x s' /\ wk s s' /\ zs Q ex s'.
Proof.
  intros HQ I L Z. destruct (wake_waiting_ok x s t died I L) as (s' & E & I' & K & G). exists s'. split; [exact E|]. split; [exact I'|]. split; [exact K|].
  intros p tid o c Lp O N M D. pose proof (zs_wk _ _ s s' K Z p tid o c Lp O N M D) as [->|H]; [|exact H].
  apply (wk_matches s s' K) in M. pose proof M as [(_ & Ep) _]. subst p. exfalso. assert (Lp' : liv s (ppid (pr s t)) = true) by (destruct K as (<- & _); exact Lp).
  specialize (G tid o O Lp' (HQ _ N) M). discriminate.
Qed.

Lemma adopt_inv p s c : inv p s -> In c (kids s p) -> 1 < p -> stt (pr s p) = Zomb -> liv s p = true -> inv p (adopt s p c).
Proof.
  intros I Hc P1 Zp Lp. apply (i_kids p s I) in Hc. pose proof Hc as [Lc Pc].
  assert (c1 : c <> 1) by (intros ->; destruct (i_init p s I) as (_ & B & _); lia).
  assert (cp : c <> p) by (intros ->; apply (i_self p s I p Lc Pc)).
  assert (Wp : wo (pr s p) = None) by (destruct (wo (pr s p)) eqn:E; [|reflexivity]; pose proof (i_wo p s I p Lp); rewrite E in *; exfalso; specialize (H ltac:(discriminate)); congruence).
  unfold adopt, upd; cbn [pr liv kids wts hist].
  set (q := if ign (pr s p) then p_areap true (p_ppid 1 (pr s c)) else p_ppid 1 (pr s c)).
  assert (Q : ppid q = 1 /\ stt q = stt (pr s c) /\ wo q = wo (pr s c) /\ vfs q = vfs (pr s c) /\ vfk q = vfk (pr s c)) by (unfold q; destruct (ign (pr s p)); repeat split).
  destruct Q as (Q1 & Q2 & Q3 & Q4 & Q5).
  assert (SS : forall y, stt (fupd (pr s) c q y) = stt (pr s y)) by (intros; fu; auto).
  assert (WW : forall y, wo (fupd (pr s) c q y) = wo (pr s y)) by (intros; fu; auto).
  assert (VS : forall y, vfs (fupd (pr s) c q y) = vfs (pr s y)) by (intros; fu; auto).
  assert (VK : forall y, vfk (fupd (pr s) c q y) = vfk (pr s y)) by (intros; fu; auto).
  assert (Vc : stt (pr s c) <> Zomb \/ c = p -> vfk (pr s c) = true -> False).
  { intros H V. destruct (i_vfk p s I c Lc H V) as [A _]. rewrite Pc in A. congruence. }
  constructor; cbn [pr liv kids wts]; unfold child; cbn [pr liv kids wts].
  - apply I.
  - rewrite SS, VK. rewrite (fupd_other (pr s)) by lia. apply I.
  - intros a b. unfold fupd at 1 2 3. destruct (Z.eqb_spec a 1) as [->|A1].
    + assert (X : (1 =? p) = false) by lia. rewrite X. rewrite in_app_iff, (i_kids p s I). unfold child, fupd. destruct (Z.eqb_spec b c) as [->|Ec]; cbn [In]; [rewrite Q1; tauto|].
      split; [intros [H|[H|[]]]; [exact H|congruence]|auto].
    + destruct (Z.eqb_spec a p) as [->|Ap].
      * rewrite in_del, (i_kids p s I). unfold child, fupd. destruct (Z.eqb_spec b c) as [->|Ec]; [rewrite Q1; split; intros; lia|tauto].
      * rewrite (i_kids p s I). unfold child, fupd. destruct (Z.eqb_spec b c) as [->|Ec]; [rewrite Q1; split; intros; lia|tauto].
  - intros a. unfold fupd at 1 2 3. assert (X : (1 =? p) = false) by lia. rewrite X. destruct (a =? 1); [|destruct (a =? p); [apply nodup_del|]; apply I].
    apply nodup_snoc; [apply I|]. rewrite (i_kids p s I). intros [_ K]. lia.
  - intros a La N. rewrite SS. unfold fupd. destruct (Z.eqb_spec a c) as [->|A].
    + rewrite Q1. split; [lia|]. split; [apply I|]. left. apply I.
    + apply (i_par p s I a La N).
  - intros a La. unfold fupd. destruct (Z.eqb_spec a c) as [->|A]; [rewrite Q1; lia|apply (i_self p s I a La)].
  - intros a. rewrite WW, SS. apply I.
  - intros t w. rewrite WW. apply I.
  - apply I.
  - intros w t o Lw. rewrite WW. intros O T. destruct (i_tgt p s I w t o Lw O T) as [A B]. split; [exact A|].
    unfold fupd. destruct (Z.eqb_spec t c) as [->|E]; [|exact B]. exfalso. rewrite Pc in B. subst w. congruence.
  - intros a La. rewrite SS, VK. intros H V. rewrite SS, VS. unfold fupd. destruct (Z.eqb_spec a c) as [->|A]; [exfalso; auto|apply (i_vfk p s I a La H V)].
  - intros a b La Lb. rewrite !SS, !VK. intros Ha Hb Va Vb. unfold fupd. destruct (Z.eqb_spec a c) as [->|A]; [exfalso; auto|]. destruct (Z.eqb_spec b c) as [->|B]; [exfalso; auto|].
    apply (i_vfu p s I); assumption.
  - intros a. rewrite VS, SS. apply I.
Qed.

(** What the adoption of some children changes *)
Definition adopted (s s' : st) (p : Z) : Prop :=
  liv s' = liv s /\ hist s' = hist s /\
  (forall t, ppid (pr s' t) = ppid (pr s t) \/ (ppid (pr s t) = p /\ ppid (pr s' t) = 1)) /\
  (forall t, pgid (pr s' t) = pgid (pr s t) /\ vfk (pr s' t) = vfk (pr s t) /\ vfs (pr s' t) = vfs (pr s t) /\ srep (pr s' t) = srep (pr s t) /\ wst (pr s' t) = wst (pr s t) /\ ign (pr s' t) = ign (pr s t)) /\
  (forall t, stt (pr s' t) = Zomb <-> stt (pr s t) = Zomb) /\
  (forall t, stt (pr s t) <> Sleep -> stt (pr s' t) = stt (pr s t)) /\
  (forall t, areap (pr s' t) = areap (pr s t) \/ (ppid (pr s t) = p /\ ign (pr s p) = true)) /\
  (forall t, stt (pr s' t) = Sleep -> stt (pr s t) = Sleep /\ wo (pr s' t) = wo (pr s t)).
Lemma adopted_refl s p : adopted s s p.
Proof. unfold adopted. intuition. Qed.
Lemma adopted_trans s1 s2 s3 p : adopted s1 s2 p -> adopted s2 s3 p -> adopted s1 s3 p.
Proof.
  intros (A1 & A2 & A3 & A4 & A5 & A6 & A7 & A8) (B1 & B2 & B3 & B4 & B5 & B6 & B7 & B8). split; [congruence|]. split; [congruence|]. split; [|split; [|split; [|split; [|split]]]].
  - intros t. destruct (A3 t) as [A|[A A']], (B3 t) as [B|[B B']]; [left; congruence|right; split; congruence|right; split; congruence|right; split; congruence].
  - intros t. destruct (A4 t) as (? & ? & ? & ? & ? & ?), (B4 t) as (? & ? & ? & ? & ? & ?). repeat split; congruence.
  - intros t. rewrite B5. apply A5.
  - intros t H. specialize (A6 t H). rewrite B6; congruence.
  - intros t. destruct (B7 t) as [B|[B B']]; [rewrite B; apply A7|]. destruct (A4 p) as (_ & _ & _ & _ & _ & E). rewrite E in B'.
    destruct (A3 t) as [A|[A _]]; right; split; congruence.
  - intros t H. destruct (B8 t H) as [B B']. destruct (A8 t B) as [A A']. split; congruence.
Qed.
Lemma wk_adopted s s' p : wk s s' -> adopted s s' p.
Proof.
  intros K. split; [apply K|]. split; [apply K|]. split; [|split; [|split; [|split; [|split]]]].
  - intros t. left. apply (wk_ppid s s' K).
  - intros t. rewrite (wk_pgid s s' K), (wk_vfk s s' K), (wk_vfs s s' K), (wk_srep s s' K), (wk_wst s s' K), (wk_ign s s' K). auto 10.
  - intros t. apply (wk_zomb s s' K).
  - intros t H. rewrite (wk_awake s s' K t H). reflexivity.
  - intros t. left. apply (wk_areap s s' K).
  - intros t H. destruct K as (_ & _ & _ & K). destruct (K t) as [E|(_ & _ & E)]; rewrite E in *; [auto|]. cbn in H. destruct (spend (pr s t)); discriminate.
Qed.
Lemma adopt_adopted s p c : ppid (pr s c) = p -> adopted s (adopt s p c) p.
Proof.
  intros Pc. unfold adopt. split; [reflexivity|]. split; [reflexivity|]. cbn [upd pr liv kids wts hist].
  split; [|split; [|split; [|split; [|split]]]]; intros t; unfold fupd; destruct (Z.eqb_spec t c) as [->|E]; auto 10; destruct (ign (pr s p)) eqn:G; cbn; auto 10; tauto.
Qed.

Lemma adopt_zs Q p s c (ex : Z -> Prop) : inv p s -> In c (kids s p) -> 1 < p -> zs Q ex s ->
  zs Q (fun y => (y = c /\ stt (pr s c) = Zomb) \/ ex y) (adopt s p c).
Proof.
  intros I Hc P1 Z w tid o y Lw O N M D. apply (i_kids p s I) in Hc. destruct Hc as [Lc Pc].
  assert (A : adopted s (adopt s p c) p) by (apply adopt_adopted, Pc). destruct A as (A1 & A2 & A3 & A4 & A5 & A6 & A7 & _). apply A5 in D.
  destruct (Z.eq_dec y c) as [->|Ne]; [left; auto|right].
  assert (Ew : forall t, wo (pr (adopt s p c) t) = wo (pr s t)).
  { intros t. unfold adopt. cbn. unfold fupd. destruct (Z.eqb_spec t c) as [->|E]; [destruct (ign (pr s p)); reflexivity|reflexivity]. }
  rewrite Ew in O. rewrite A1 in Lw. apply (Z w tid o y Lw O N); [|exact D].
  destruct M as ((L & Pp) & M1 & M2 & M3). destruct (A4 y) as (G & _). destruct (A4 w) as (G2 & _). rewrite G in M2, M3. rewrite G2 in M2.
  split; [|auto]. split; [rewrite <- A1; exact L|].
  unfold adopt in Pp. cbn in Pp. rewrite fupd_other in Pp by exact Ne. exact Pp.
Qed.

Lemma adopt_all_ok (Q : Z -> Prop) p l : (forall t, Q t -> t <> 0) -> forall s (ex : Z -> Prop), inv p s -> 1 < p -> stt (pr s p) = Zomb -> liv s p = true -> kids s p = l -> zs Q ex s ->
  exists s', adopt_all s p l = Some s' /\ inv p s' /\ zs Q ex s' /\ adopted s s' p /\ kids s' p = [].
Proof.
  intros HQ. induction l as [|c l IH]; intros s ex I P1 Zp Lp K Z.
  - exists s. cbn. auto 10 using adopted_refl.
  - assert (Hc : In c (kids s p)) by (rewrite K; left; reflexivity).
    pose proof (proj1 (i_kids p s I p c) Hc) as [Lc Pc]. cbn [adopt_all].
    pose proof (adopt_adopted s p c Pc) as A1. pose proof (adopt_inv p s c I Hc P1 Zp Lp) as I1. pose proof (adopt_zs Q p s c ex I Hc P1 Z) as Z1.
    assert (K1 : kids (adopt s p c) p = l).
    { unfold adopt. cbn. rewrite (fupd_other _ 1) by lia. rewrite fupd_same, K. pose proof (i_nodup p s I p) as N. rewrite K in N. apply NoDup_cons_iff in N.
      cbn. rewrite Z.eqb_refl. cbn. destruct N as [N _]. clear - N. induction l as [|a l IH]; [reflexivity|]. cbn. destruct (Z.eqb_spec a c) as [->|E]; [exfalso; apply N; left; reflexivity|].
      cbn. f_equal. apply IH. intros H. apply N. right. exact H. }
    pose proof A1 as (B1 & _ & _ & _ & B5 & _). cbn zeta. set (s1 := adopt s p c) in *.
    destruct (st_eqb (stt (pr s1 c)) Zomb) eqn:D.
    + destruct (wake_waiting_died Q p s1 c ex HQ I1) as (s2 & E2 & I2 & W2 & Z2); [rewrite B1; exact Lc|apply (zs_weak _ _ _ s1) with (2 := Z1); tauto|]. rewrite E2.
      destruct (IH s2 ex I2 P1) as (s' & E' & I' & Z' & A' & K'); auto.
      * apply (wk_zomb s1 s2 W2), B5, Zp.
      * destruct W2 as (-> & _). rewrite B1. exact Lp.
      * destruct W2 as (_ & -> & _). exact K1.
      * exists s'. split; [exact E'|]. split; [exact I'|]. split; [exact Z'|]. split; [|exact K'].
        apply (adopted_trans s s1 s' p A1). apply (adopted_trans s1 s2 s' p); [apply wk_adopted, W2|exact A'].
    + destruct (IH s1 ex I1 P1) as (s' & E' & I' & Z' & A' & K'); auto.
      * apply B5, Zp.
      * apply (zs_weak _ _ _ s1) with (2 := Z1). intros y [[-> H]|H]; [|exact H]. apply st_eqb_neq in D. exfalso. apply D, B5, H.
      * exists s'. split; [exact E'|]. split; [exact I'|]. split; [exact Z'|]. split; [|exact K']. apply (adopted_trans s s1 s' p A1 A').
Qed.

Lemma inv_ext x s s' : (forall t, pr s' t = pr s t) -> liv s' = liv s -> kids s' = kids s -> wts s' = wts s -> inv x s -> inv x s'.
Proof.
  intros H L K W I. destruct I. constructor; unfold child in *; rewrite ?L, ?K, ?W; intros; rewrite ?H in *; eauto.
Qed.
Lemma log_inv x s e : inv x s -> inv x (log s e).
Proof. intros I. apply (inv_ext x s); auto. Qed.

Lemma inv_set x s : liv s x = true -> stt (pr s x) <> Zomb -> inv (-1) s -> inv x s.
Proof.
  intros L N I. constructor; try apply I.
  - intros c Lc Nc. destruct (i_par _ s I c Lc Nc) as (A & B & C). split; [exact A|]. split; [exact B|]. left. destruct C as [C|C]; [exact C|]. lia.
  - intros c Lc H. apply (i_vfk _ s I c Lc). destruct H as [H| ->]; auto.
  - intros c d Lc Ld Hc Hd. apply (i_vfu _ s I c d Lc Ld); [destruct Hc as [H| ->]|destruct Hd as [H| ->]]; auto.
Qed.
Lemma inv_unset x s : kids s x = [] -> inv x s -> inv (-1) s.
Proof.
  intros K I. constructor; try apply I.
  - intros c Lc Nc. destruct (i_par _ s I c Lc Nc) as (A & B & C). split; [exact A|]. split; [exact B|]. destruct C as [C|C]; [auto|].
    exfalso. assert (X : In c (kids s x)) by (apply (i_kids _ s I); split; auto). rewrite K in X. exact X.
  - intros c Lc H. apply (i_vfk _ s I c Lc). destruct H as [H| ->]; [auto|]. pose proof (i_pos _ s I _ Lc). lia.
  - intros c d Lc Ld Hc Hd. apply (i_vfu _ s I c d Lc Ld); [destruct Hc as [H| ->]|destruct Hd as [H| ->]]; auto; [pose proof (i_pos _ s I _ Lc)|pose proof (i_pos _ s I _ Ld)]; lia.
Qed.

(** unblocking a parent with no vforked child left *)
Lemma free_parent_inv s p : inv (-1) s -> liv s p = true -> stt (pr s p) = Stop ->
  (forall d, liv s d = true -> stt (pr s d) <> Zomb -> vfk (pr s d) = true -> ppid (pr s d) <> p) -> inv (-1) (upd s p (p_state Run (p_vfs false (pr s p)))).
Proof.
  intros I L S N. set (q := p_state Run (p_vfs false (pr s p))).
  assert (PP : forall c, ppid (fupd (pr s) p q c) = ppid (pr s c)) by (intros; fu; auto).
  assert (WW : forall c, wo (fupd (pr s) p q c) = wo (pr s c)) by (intros; fu; auto).
  assert (VV : forall c, vfk (fupd (pr s) p q c) = vfk (pr s c)) by (intros c; fu; auto).
  assert (Wp : wo (pr s p) = None) by (destruct (wo (pr s p)) eqn:E; [|reflexivity]; pose proof (i_wo _ s I p L); rewrite E in *; exfalso; specialize (H ltac:(discriminate)); congruence).
  assert (ZZ : forall c, stt (fupd (pr s) p q c) <> Zomb \/ c = -1 -> stt (pr s c) <> Zomb \/ c = -1) by (intros c [H|H]; [|auto]; left; fu; [congruence|exact H]).
  constructor; cbn [upd pr liv kids wts]; unfold child; cbn [upd pr liv kids wts].
  - apply I.
  - rewrite PP, VV. destruct (i_init _ s I) as (A & B & C & D). repeat split; auto. fu; [discriminate|exact C].
  - intros a c. rewrite PP. apply I.
  - apply I.
  - intros c Lc Nc. rewrite PP. destruct (i_par _ s I c Lc Nc) as (A & B & C). split; [exact A|]. split; [exact B|]. destruct C as [C|C]; [left|lia]. fu; [discriminate|exact C].
  - intros c. rewrite PP. apply I.
  - intros c Lc. rewrite WW. intros H. pose proof (i_wo _ s I c Lc H). fu; [congruence|assumption].
  - intros t w. rewrite WW. apply I.
  - apply I.
  - intros w t o. rewrite WW, PP. apply I.
  - intros c Lc Hz. rewrite VV, PP. intros V. assert (Nz : stt (pr s c) <> Zomb) by (destruct (ZZ c Hz) as [H| ->]; [exact H|pose proof (i_pos _ s I _ Lc); lia]).
    pose proof (N c Lc Nz V). destruct (i_vfk _ s I c Lc (or_introl Nz) V). rewrite fupd_other by assumption. auto.
  - intros c d Lc Ld Hc Hd. rewrite !VV, !PP. apply (i_vfu _ s I c d Lc Ld (ZZ c Hc) (ZZ d Hd)).
  - intros c Lc V. pose proof (i_vfs _ s I c Lc). fu; [discriminate|auto].
Qed.

Lemma zombie_no_kids s t : inv (-1) s -> 1 <= t -> stt (pr s t) = Zomb -> kids s t = [].
Proof.
  intros I P Z. destruct (kids s t) as [|c l] eqn:K; [reflexivity|]. exfalso. assert (X : In c (kids s t)) by (rewrite K; left; reflexivity).
  apply (i_kids _ s I) in X. destruct X as [L E]. destruct (Z.eq_dec c 1) as [->|N]; [destruct (i_init _ s I); lia|].
  destruct (i_par _ s I c L N) as (_ & _ & [A|A]); rewrite E in A; [congruence|lia].
Qed.
Lemma remove_inv s t : inv (-1) s -> liv s t = true -> stt (pr s t) = Zomb -> (forall w o, liv s w = true -> wo (pr s w) <> Some (t, o)) -> inv (-1) (remove s t).
Proof.
  intros I L Z W. pose proof (zombie_no_kids s t I (i_pos _ s I t L) Z) as K.
  assert (t1 : t <> 1) by (intros ->; destruct (i_init _ s I) as (_ & _ & H & _); congruence).
  assert (Wt : wo (pr s t) = None) by (destruct (wo (pr s t)) eqn:E; [|reflexivity]; pose proof (i_wo _ s I t L); rewrite E in *; exfalso; specialize (H ltac:(discriminate)); congruence).
  assert (LL : forall c, fupd (liv s) t false c = true <-> liv s c = true /\ c <> t) by (intros c; fu; split; intros; intuition congruence).
  constructor; unfold remove, child; cbn [pr liv kids wts].
  - intros c H. apply LL in H. apply (i_pos _ s I). tauto.
  - destruct (i_init _ s I) as (A & B & C & D). repeat split; auto. apply LL. auto.
  - intros p c. rewrite LL. unfold fupd. destruct (Z.eqb_spec p (ppid (pr s t))) as [->|E].
    + rewrite in_del, (i_kids _ s I). unfold child. tauto.
    + rewrite (i_kids _ s I). unfold child. split; [intros [A B]; repeat split; auto; congruence|tauto].
  - intros p. fu; [apply nodup_del|]; apply I.
  - intros c Lc N. apply LL in Lc. destruct Lc as [Lc Nc]. destruct (i_par _ s I c Lc N) as (A & B & C). split; [exact A|]. split; [|exact C]. apply LL. split; [exact B|].
    intros E. destruct C as [C|C]; [congruence|lia].
  - intros c Lc. apply LL in Lc. apply (i_self _ s I). tauto.
  - intros c Lc. apply LL in Lc. apply (i_wo _ s I). tauto.
  - intros y w. rewrite LL, (i_wts _ s I). split; [|tauto]. intros (A & B & o & C). repeat split; auto; [|eauto]. intros ->. congruence.
  - apply I.
  - intros w y o Lw O P. apply LL in Lw. destruct Lw as [Lw _]. destruct (i_tgt _ s I w y o Lw O P) as [A B]. split; [|exact B]. apply LL. split; [exact A|]. intros ->. apply (W w o Lw O).
  - intros c Lc. apply LL in Lc. apply (i_vfk _ s I). tauto.
  - intros c d Lc Ld. apply LL in Lc, Ld. apply (i_vfu _ s I); tauto.
  - intros c Lc. apply LL in Lc. apply (i_vfs _ s I). tauto.
Qed.

(** Preservation of [zs] *)
Lemma zs_frame Q ex s s' :
  (forall t, liv s' t = true -> liv s t = true) -> (forall t, liv s' t = true -> ppid (pr s' t) = ppid (pr s t) /\ pgid (pr s' t) = pgid (pr s t)) ->
  (forall t, liv s' t = true -> stt (pr s' t) = Zomb -> stt (pr s t) = Zomb) -> (forall t v, liv s' t = true -> wo (pr s' t) = Some v -> wo (pr s t) = Some v) ->
  zs Q ex s -> zs Q ex s'.
Proof.
  intros A B C D Z p tid o c L O N M H. pose proof M as ((Lc & Pc) & M1 & M2 & M3).
  apply (Z p tid o c (A p L) (D p _ L O) N); [|apply C; assumption].
  destruct (B c Lc) as [B1 B2]. destruct (B p L) as [B3 B4]. unfold matches. rewrite <- B2, <- B4. split; [|auto]. split; [apply A, Lc|congruence].
Qed.

(** Preservation of the histories *)
Definition lifeok (s : st) : Prop := forall c, c <> 1 -> exists ph, life c (hist s) = Some ph /\ in_phase s c ph.
Lemma life_frame s s' : hist s' = hist s -> (forall t, liv s' t = liv s t) -> (forall t, liv s t = true -> stt (pr s' t) = Zomb <-> stt (pr s t) = Zomb) ->
  (forall t, liv s t = true -> stt (pr s t) = Zomb -> wst (pr s' t) = wst (pr s t)) -> (forall t, liv s t = true -> ppid (pr s' t) = ppid (pr s t) \/ ppid (pr s' t) = 1) -> lifeok s -> lifeok s'.
Proof.
  intros H L Z W P I c N. destruct (I c N) as (ph & E & F). exists ph. rewrite H. split; [exact E|].
  destruct ph as [|p|p w]; cbn in *; rewrite L; [exact F| |].
  - destruct F as (A & B & D). specialize (Z c A). specialize (P c A). split; [exact A|]. split; [tauto|]. destruct P as [->|P]; auto.
  - destruct F as (A & B & D & F). specialize (Z c A). specialize (P c A). split; [exact A|]. split; [tauto|]. rewrite W by assumption. split; [exact D|]. destruct P as [->|P]; auto.
Qed.
Lemma life_wk s s' : wk s s' -> lifeok s -> lifeok s'.
Proof.
  intros K. apply life_frame; [apply K|destruct K as (-> & _); reflexivity|intros t _; apply (wk_zomb s s' K)|intros t _ _; apply (wk_wst s s' K)|intros t _; left; apply (wk_ppid s s' K)].
Qed.
Lemma life_adopted s s' p : adopted s s' p -> lifeok s -> lifeok s'.
Proof.
  intros (A1 & A2 & A3 & A4 & A5 & _). apply life_frame; [exact A2|rewrite A1; reflexivity|intros t _; apply A5|intros t _ _; apply A4|]. intros t _. destruct (A3 t) as [H|[_ H]]; auto.
Qed.
(** a step in which the only phase that changes is that of [t] *)
Lemma life_event s s' t e : hist s' = e :: hist s -> lifeok s -> (forall c, c <> t -> forall ph, advance c e ph = Some ph) ->
  (forall c, c <> t -> liv s' c = liv s c /\ (liv s c = true -> (stt (pr s' c) = Zomb <-> stt (pr s c) = Zomb) /\ (stt (pr s c) = Zomb -> wst (pr s' c) = wst (pr s c)) /\ (ppid (pr s' c) = ppid (pr s c) \/ ppid (pr s' c) = 1))) ->
  (forall ph, t <> 1 -> in_phase s t ph -> exists ph', advance t e ph = Some ph' /\ in_phase s' t ph') -> lifeok s'.
Proof.
  intros H I A F T c N. destruct (I c N) as (ph & E & G). rewrite H. cbn [life]. rewrite E. destruct (Z.eq_dec c t) as [->|Ne]; [apply T; assumption|].
  exists ph. rewrite (A c Ne). split; [reflexivity|]. destruct (F c Ne) as (L & F'). destruct ph as [|p|p w]; cbn in *; rewrite L; [exact G| |].
  - destruct G as (B & C & D). destruct (F' B) as (F1 & F2 & F3). split; [exact B|]. split; [tauto|]. destruct F3 as [->|F3]; auto.
  - destruct G as (B & C & D & J). destruct (F' B) as (F1 & F2 & F3). split; [exact B|]. split; [tauto|]. rewrite F2 by exact C. split; [exact D|]. destruct F3 as [->|F3]; auto.
Qed.

Definition none (c : Z) : Prop := False.
Section Steps.
  Variable Q : Z -> Prop.
  Hypothesis Q0 : forall t, Q t -> t <> 0.
  Hypothesis Q1 : forall t, 0 < t -> Q t.

  Lemma running_wo s p : inv (-1) s -> running s p -> wo (pr s p) = None /\ vfs (pr s p) = false.
  Proof.
    intros I [L R]. split.
    - destruct (wo (pr s p)) eqn:E; [|reflexivity]. pose proof (i_wo _ s I p L). rewrite E in *. specialize (H ltac:(discriminate)). congruence.
    - destruct (vfs (pr s p)) eqn:E; [|reflexivity]. apply (i_vfs _ s I p L) in E. congruence.
  Qed.

  Lemma exit_ok s p ret sig : inv (-1) s -> zs Q none s -> lifeok s -> running s p -> p <> 1 ->
    exists s', do_exit s p ret sig = Some s' /\ inv (-1) s' /\ zs Q none s' /\ lifeok s' /\
      (forall c, child s p c -> child s' 1 c) /\ (areap (pr s p) = true \/ ign (pr s (ppid (pr s p))) = true -> liv s' p = false) /\
      (areap (pr s p) = false -> ign (pr s (ppid (pr s p))) = false -> liv s' p = true /\ stt (pr s' p) = Zomb /\ wst (pr s' p) = exitcode ret sig /\ ppid (pr s' p) = ppid (pr s p)) /\
      (forall t, t <> p -> liv s' t = liv s t) /\
      (forall tid o, wo (pr s (ppid (pr s p))) = Some (tid, o) -> tid <> 0 -> matches s (ppid (pr s p)) tid p -> stt (pr s' (ppid (pr s p))) <> Sleep) /\
      (hist s' = EExit p (exitcode ret sig) :: hist s \/ hist s' = EAuto p :: EExit p (exitcode ret sig) :: hist s) /\
      (forall t, t <> p -> areap (pr s' t) = true -> areap (pr s t) = true \/ (ppid (pr s t) = p /\ ign (pr s p) = true)).
  Proof.
    intros I Z F R N1. pose proof (running_wo s p I R) as [Wp Vp]. pose proof R as [Lp Rp].
    pose proof (i_pos _ s I p Lp) as P1. assert (P2 : 1 < p) by lia.
    unfold do_exit. set (q := p_wst (exitcode ret sig) (p_state Zomb (pr s p))). set (s0 := log (upd s p q) (EExit p (exitcode ret sig))).
    assert (I0 : inv p s0).
    { apply log_inv, upd_inv; auto; try (cbn; congruence); try (intros; lia). apply inv_set; auto. congruence. }
    assert (E0 : pr s0 p = q) by (cbn; apply fupd_same).
    assert (X0 : forall t, t <> p -> pr s0 t = pr s t) by (intros t Ht; cbn; apply fupd_other, Ht).
    assert (Z0 : zs Q (fun c => c = p) s0).
    { intros w tid o c Lw O T M D. destruct (Z.eq_dec c p) as [->|Nc]; [reflexivity|exfalso].
      assert (w <> p) by (intros ->; rewrite E0 in O; cbn in O; congruence).
      rewrite X0 in O by assumption. rewrite X0 in D by assumption. apply (Z w tid o c Lw O T); [|exact D].
      destruct M as ((A & B) & M). rewrite X0 in * by assumption. split; [split; [exact A|exact B]|]. rewrite X0 in M by assumption. exact M. }
    assert (F0 : lifeok s0).
    { apply (life_event s s0 p (EExit p (exitcode ret sig))); [reflexivity|exact F| | |].
      - intros c Nc ph. cbn. assert (X : (p =? c) = false) by lia. rewrite X. reflexivity.
      - intros c Nc. rewrite X0 by exact Nc. split; [reflexivity|]. intros _. split; [tauto|]. split; auto.
      - intros ph _ H. cbn. rewrite Z.eqb_refl. destruct ph as [|pp|pp w]; cbn in H; [congruence| |destruct H as (_ & H & _); congruence].
        eexists. split; [reflexivity|]. unfold in_phase. rewrite E0. cbn. destruct H as (A & B & C). auto. }
    destruct (adopt_all_ok Q p (kids s0 p) Q0 s0 (fun c => c = p) I0 P2) as (s1 & E1 & I1 & Z1 & A1 & K1); auto; [rewrite E0; reflexivity|].
    rewrite E1. pose proof A1 as (B1 & B2 & B3 & B4 & B5 & B6 & B7 & B8).
    assert (L1 : liv s1 p = true) by (rewrite B1; exact Lp).
    assert (N0 : ppid (pr s p) <> p) by (apply (i_self _ s I), Lp).
    assert (PP : ppid (pr s1 p) = ppid (pr s p)) by (destruct (B3 p) as [H|[H _]]; rewrite E0 in H; cbn in H; congruence).
    destruct (wake_waiting_ok p s1 p died I1 L1) as (s2 & E2 & I2 & K2 & G2). rewrite E2. rewrite PP in G2.
    assert (Z2 : zs Q none s2).
    { destruct (wake_waiting_died Q p s1 p none Q0 I1 L1) as (s2' & E2' & _ & _ & Z2'); [apply (zs_weak _ _ _ s1) with (2 := Z1); auto|]. rewrite E2 in E2'. inversion E2'. exact Z2'. }
    assert (PP2 : ppid (pr s2 p) = ppid (pr s p)) by (rewrite (wk_ppid s1 s2 K2); exact PP).
    assert (Lpar : liv s (ppid (pr s p)) = true) by (apply (i_par _ s I p Lp N1)).
    assert (LV2 : liv s2 = liv s) by (destruct K2 as (-> & _); rewrite B1; reflexivity).
    assert (KK2 : kids s2 p = []) by (destruct K2 as (_ & -> & _); exact K1).
    assert (I2' : inv (-1) s2) by (apply (inv_unset p); assumption).
    assert (V2 : vfk (pr s2 p) = vfk (pr s p)) by (rewrite (wk_vfk s1 s2 K2); destruct (B4 p) as (_ & -> & _); rewrite E0; reflexivity).
    (* the parent of a vforked child *)
    assert (U : exists s3, (if vfk (pr s2 p) then unblock s2 p else Some s2) = Some s3 /\ inv (-1) s3 /\ liv s3 = liv s2 /\ kids s3 = kids s2 /\ hist s3 = hist s2 /\
                 (forall t, pr s3 t = pr s2 t \/ (stt (pr s2 t) = Stop /\ pr s3 t = p_state Run (p_vfs false (pr s2 t)))) /\ pr s3 p = pr s2 p).
    { assert (Zp2 : stt (pr s2 p) = Zomb) by (apply (wk_zomb s1 s2 K2), B5; rewrite E0; reflexivity).
      destruct (vfk (pr s2 p)) eqn:V.
      - destruct (i_vfk _ s2 I2 p) as [C1 C2]; [rewrite LV2; exact Lp|auto|exact V|]. rewrite PP2 in C1, C2.
        unfold unblock. rewrite PP2, V, LV2, Lpar, C1, C2. cbn [andb st_eqb]. eexists. split; [reflexivity|]. split.
        + apply free_parent_inv; [exact I2'|rewrite LV2; exact Lpar|exact C1|]. intros d Ld Nz Vd Pd. assert (p = d); [|subst d; congruence].
          apply (i_vfu _ s2 I2 p d); auto; [rewrite LV2; exact Lp|congruence].
        + split; [cbn; exact LV2|]. split; [reflexivity|]. split; [reflexivity|]. split.
          * intros t. cbn. fu; [right; auto|left; reflexivity].
          * cbn. apply fupd_other. congruence.
      - exists s2. auto 10. }
    destruct U as (s3 & E3 & I3 & L3 & K3 & H3 & P3 & P3p). rewrite E3. rewrite P3p, PP2. set (par := ppid (pr s p)) in *.
    assert (Ig : ign (pr s3 par) = ign (pr s par)).
    { assert (X : ign (pr s2 par) = ign (pr s par)). { rewrite (wk_ign s1 s2 K2). destruct (B4 par) as (_ & _ & _ & _ & _ & ->). rewrite X0 by congruence. reflexivity. }
      rewrite <- X. destruct (P3 par) as [->|(_ & ->)]; reflexivity. }
    rewrite Ig, L3, LV2, Lpar. cbn [andb].
    assert (Z3 : zs Q none s3).
    { apply (zs_frame Q none s2); auto.
      - intros t. rewrite L3. auto.
      - intros t _. destruct (P3 t) as [->|(_ & ->)]; auto.
      - intros t _. destruct (P3 t) as [->|(_ & ->)]; [auto|discriminate].
      - intros t v _. destruct (P3 t) as [->|(_ & ->)]; auto. }
    assert (F3 : lifeok s3).
    { apply (life_frame s2); [exact H3|intros; rewrite L3; reflexivity| | | |apply (life_wk s1 s2 K2), (life_adopted s0 s1 p A1 F0)].
      - intros t _. destruct (P3 t) as [->|(A & ->)]; [tauto|cbn; split; congruence].
      - intros t _ _. destruct (P3 t) as [->|(A & ->)]; reflexivity.
      - intros t _. left. destruct (P3 t) as [->|(A & ->)]; reflexivity. }
    assert (Zp3 : stt (pr s3 p) = Zomb) by (rewrite P3p; apply (wk_zomb s1 s2 K2), B5; rewrite E0; reflexivity).
    assert (Wst3 : wst (pr s3 p) = exitcode ret sig).
    { rewrite P3p, (wk_wst s1 s2 K2). destruct (B4 p) as (_ & _ & _ & _ & -> & _). rewrite E0. reflexivity. }
    assert (Ar3 : areap (pr s3 p) = areap (pr s p)).
    { rewrite P3p, (wk_areap s1 s2 K2). destruct (B7 p) as [->|(H & _)]; [rewrite E0; reflexivity|rewrite E0 in H; exfalso; apply N0; exact H]. }
    set (s4 := if ign (pr s par) then upd s3 p (p_areap true (pr s3 p)) else s3).
    assert (E4 : (if ign (pr s par) then upd s3 p (p_areap true (pr s2 p)) else s3) = s4) by (unfold s4; rewrite P3p; reflexivity).
    rewrite E4.
    assert (L4 : liv s4 = liv s) by (unfold s4; destruct (ign (pr s par)); cbn; congruence).
    assert (I4 : inv (-1) s4).
    { unfold s4. destruct (ign (pr s par)); [|exact I3]. apply upd_inv; auto; [rewrite L3, LV2; exact Lp|apply (i_wo _ s3 I3 p); rewrite L3, LV2; exact Lp|apply (i_vfs _ s3 I3 p); rewrite L3, LV2; exact Lp]. }
    assert (X4 : forall t, ppid (pr s4 t) = ppid (pr s3 t) /\ pgid (pr s4 t) = pgid (pr s3 t) /\ stt (pr s4 t) = stt (pr s3 t) /\ wst (pr s4 t) = wst (pr s3 t) /\ wo (pr s4 t) = wo (pr s3 t)).
    { intros t. unfold s4. destruct (ign (pr s par)); [|auto 10]. cbn. fu; auto 10. }
    assert (Z4 : zs Q none s4).
    { apply (zs_frame Q none s3); auto; [intros t; rewrite L4, L3, LV2; auto|intros t _; destruct (X4 t) as (A & B & _); auto|intros t _; destruct (X4 t) as (_ & _ & -> & _); auto|intros t v _; destruct (X4 t) as (_ & _ & _ & _ & ->); auto]. }
    assert (F4 : lifeok s4).
    { apply (life_frame s3); [unfold s4; destruct (ign (pr s par)); reflexivity|intros t; rewrite L4, L3, LV2; reflexivity|intros t _; destruct (X4 t) as (_ & _ & -> & _); tauto|intros t _ _; apply X4|intros t _; left; apply X4|exact F3]. }
    assert (Kid : forall c, child s p c -> child s4 1 c).
    { intros c [Lc Pc]. assert (c1 : c <> 1) by (intros ->; destruct (i_init _ s I); lia). assert (cp : c <> p) by (intros ->; apply N0; exact Pc).
      split; [rewrite L4; exact Lc|]. destruct (X4 c) as (-> & _). destruct (P3 c) as [->|(_ & ->)]; cbn; rewrite (wk_ppid s1 s2 K2); destruct (B3 c) as [H|[_ H]]; auto; exfalso;
        rewrite X0 in H by exact cp; assert (X : In c (kids s1 p)) by (apply (i_kids _ s1 I1); split; [rewrite B1; exact Lc|congruence]); rewrite K1 in X; exact X. }
    assert (H4 : hist s4 = EExit p (exitcode ret sig) :: hist s).
    { transitivity (hist s3); [unfold s4; destruct (ign (pr s par)); reflexivity|]. rewrite H3. destruct K2 as (_ & _ & -> & _). rewrite B2. reflexivity. }
    assert (Wk4 : forall tid o, wo (pr s par) = Some (tid, o) -> tid <> 0 -> matches s par tid p -> stt (pr s4 par) <> Sleep).
    { intros tid o O T M Sl. destruct (X4 par) as (_ & _ & Es & _ & _). rewrite Es in Sl.
      assert (Sl2 : stt (pr s2 par) = Sleep) by (destruct (P3 par) as [E|(_ & E)]; rewrite E in Sl; [exact Sl|discriminate]).
      assert (Q2 : pr s2 par = pr s1 par). { pose proof K2 as (_ & _ & _ & KK). destruct (KK par) as [E|(_ & _ & E)]; [exact E|]. rewrite E in Sl2. cbn in Sl2. destruct (spend (pr s1 par)); discriminate. }
      rewrite Q2 in Sl2. destruct (B8 par Sl2) as [_ Ew]. rewrite X0 in Ew by (exact N0).
      assert (O2 : wo (pr s2 par) = Some (tid, o)) by (rewrite Q2, Ew; exact O).
      specialize (G2 tid o O2 ltac:(rewrite B1; exact Lpar) T). assert (X : good o died = false); [apply G2|discriminate].
      destruct M as ((Ma & Mb) & M1 & M2 & M3). assert (Gp : pgid (pr s1 p) = pgid (pr s p)) by (destruct (B4 p) as (-> & _); rewrite E0; reflexivity).
      assert (Gq : pgid (pr s1 par) = pgid (pr s par)) by (destruct (B4 par) as (-> & _); rewrite X0 by (exact N0); reflexivity).
      split; [split; [exact L1|exact PP]|]. rewrite Gp, Gq. auto. }
    assert (Ar4 : areap (pr s4 p) = areap (pr s p) || ign (pr s par)).
    { unfold s4. destruct (ign (pr s par)); cbn; [rewrite fupd_same; cbn; rewrite orb_true_r; reflexivity|]. rewrite Ar3, orb_false_r. reflexivity. }
    assert (Ao4 : forall t, t <> p -> areap (pr s4 t) = true -> areap (pr s t) = true \/ (ppid (pr s t) = p /\ ign (pr s p) = true)).
    { intros t Nt H. assert (H3' : areap (pr s3 t) = true) by (unfold s4 in H; destruct (ign (pr s par)); [cbn in H; rewrite fupd_other in H by exact Nt|]; exact H).
      assert (H2 : areap (pr s2 t) = true) by (destruct (P3 t) as [E|(_ & E)]; rewrite E in H3'; exact H3'). rewrite (wk_areap s1 s2 K2) in H2.
      destruct (B7 t) as [E|(A & B)]; rewrite ?X0 in * by assumption; [left; congruence|right]. rewrite E0 in B. auto. }
    rewrite Ar4. clearbody s4. destruct (areap (pr s p) || ign (pr s par)) eqn:AA.
    - eexists. split; [reflexivity|]. assert (Zp4 : stt (pr s4 p) = Zomb) by (destruct (X4 p) as (_ & _ & -> & _); exact Zp3).
      split; [|split; [|split; [|split; [|split; [|split; [|split; [|split; [|split]]]]]]]].
      + apply log_inv, remove_inv; [exact I4|rewrite L4; exact Lp|exact Zp4|]. intros w o Lw O.
        assert (Hz : none p); [|exact Hz]. apply (Z4 w p o p Lw O); [apply Q1; lia| |exact Zp4].
        destruct (i_tgt _ s4 I4 w p o Lw O ltac:(lia)) as [A B]. split; [split; assumption|]. split; [reflexivity|]. split; intros; lia.
      + apply (zs_frame Q none s4); auto; cbn; intros t; fu; auto; congruence.
      + apply (life_event s4 _ p (EAuto p)); [reflexivity|exact F4| | |].
        * intros c Nc ph. cbn. assert (X : (p =? c) = false) by lia. rewrite X. reflexivity.
        * intros c Nc. cbn. rewrite fupd_other by exact Nc. split; [reflexivity|]. intros _. split; [tauto|]. auto.
        * intros ph _ H. cbn. rewrite Z.eqb_refl. destruct ph as [|pp|pp w]; cbn in H; [rewrite L4 in H; congruence|tauto|]. exists Absent. split; [reflexivity|]. cbn. apply fupd_same.
      + intros c Hc. destruct (Kid c Hc) as [A B]. split; [|exact B]. cbn. rewrite fupd_other; [exact A|]. intros ->. destruct Hc as [_ Hc]. apply N0. exact Hc.
      + intros _. cbn. apply fupd_same.
      + intros A B. rewrite A, B in AA. discriminate.
      + intros t Nt. cbn. rewrite fupd_other by exact Nt. rewrite L4. reflexivity.
      + exact Wk4.
      + right. cbn. rewrite H4. reflexivity.
      + exact Ao4.
    - exists s4. split; [reflexivity|]. apply orb_false_iff in AA. destruct AA as [AA1 AA2].
      split; [exact I4|]. split; [exact Z4|]. split; [exact F4|]. split; [exact Kid|]. split; [intros [H|H]; congruence|].
      split; [|split; [intros; rewrite L4; reflexivity|split; [exact Wk4|split; [left; exact H4|exact Ao4]]]].
      intros _ _. destruct (X4 p) as (-> & _ & -> & -> & _). rewrite Zp3, Wst3, L4, P3p, PP2. auto.
  Qed.

  Lemma changed_some q o : changed q o <> None <-> reportable q o.
  Proof.
    unfold changed, reportable, stopped_now, is_stopped. destruct (stt q), (spend q), (srep q), (untraced o), (continued o); cbn; split; try congruence; intros; intuition congruence.
  Qed.
  Lemma changed_srep q o b : changed q o = Some b -> stt q <> Zomb -> b = true <-> stopped_now q.
  Proof.
    unfold changed, stopped_now, is_stopped. destruct (stt q), (spend q), (srep q), (untraced o), (continued o); cbn; intros E; inversion E; subst; intuition congruence.
  Qed.
  Lemma search_ok s p tid o : forall l cnt, (forall c, In c l -> child s p c) ->
    match search s p tid o l cnt with
    | (Some (c, b), _) => In c l /\ matches s p tid c /\ changed (pr s c) o = Some b
    | (None, n) => cnt <= n /\ (n = cnt -> forall c, In c l -> ~ matches s p tid c) /\ (n <> cnt -> exists c, In c l /\ matches s p tid c) /\
                   forall c, In c l -> matches s p tid c -> changed (pr s c) o = None
    end.
  Proof.
    induction l as [|c l IH]; intros cnt H; cbn [search].
    - split; [lia|]. split; [intros _ c []|]. split; [lia|intros c []].
    - assert (Hc := H c (or_introl eq_refl)). pose proof (skip_matches s p c tid Hc) as S.
      assert (Hl : forall c, In c l -> child s p c) by (intros; apply H; right; assumption).
      destruct (skip s p c tid) eqn:K.
      + assert (NM : ~ matches s p tid c) by (intros M; apply S in M; discriminate).
        specialize (IH cnt Hl). destruct (search s p tid o l cnt) as [[[d b]|] n].
        * destruct IH as (A & B). split; [right; exact A|exact B].
        * destruct IH as (A & B & C & D). split; [exact A|]. split; [|split].
          -- intros E d [<-|Hd]; auto.
          -- intros E. destruct (C E) as (d & Hd & M). exists d. split; [right; exact Hd|exact M].
          -- intros d [<-|Hd] M; [contradiction|auto].
      + assert (M : matches s p tid c) by (apply S; reflexivity).
        destruct (changed (pr s c) o) as [b|] eqn:G.
        * split; [left; reflexivity|]. auto.
        * specialize (IH (cnt + 1) Hl). destruct (search s p tid o l (cnt + 1)) as [[[d b]|] n].
          -- destruct IH as (A & B). split; [right; exact A|exact B].
          -- destruct IH as (A & B & C & D). split; [lia|]. split; [lia|]. split.
             ++ intros _. exists c. split; [left; reflexivity|exact M].
             ++ intros d [<-|Hd] Md; auto.
  Qed.

  Lemma sleep_inv s p tid o : inv (-1) s -> running s p -> (0 < tid -> child s p tid) ->
    inv (-1) (upd (if 0 <? tid then mk (pr s) (liv s) (kids s) (fupd (wts s) tid (wts s tid ++ [p])) (hist s) else s) p (p_state Sleep (p_wo (Some (tid, o)) (pr s p)))).
  Proof.
    intros I R C. pose proof (running_wo s p I R) as [Wp Vp]. pose proof R as [Lp Rp].
    set (W := if 0 <? tid then fupd (wts s) tid (wts s tid ++ [p]) else wts s). set (q := p_state Sleep (p_wo (Some (tid, o)) (pr s p))).
    assert (E : upd (if 0 <? tid then mk (pr s) (liv s) (kids s) (fupd (wts s) tid (wts s tid ++ [p])) (hist s) else s) p q = mk (fupd (pr s) p q) (liv s) (kids s) W (hist s)) by (unfold W; destruct (0 <? tid); reflexivity).
    assert (Eq : p_state Sleep (p_wo (Some (tid, o)) (pr (if 0 <? tid then mk (pr s) (liv s) (kids s) (fupd (wts s) tid (wts s tid ++ [p])) (hist s) else s) p)) = q) by (destruct (0 <? tid); reflexivity).
    rewrite ?Eq, E. clear E Eq.
    assert (PP : forall c, ppid (fupd (pr s) p q c) = ppid (pr s c)) by (intros c; unfold fupd; destruct (c =? p) eqn:X; [apply Z.eqb_eq in X; subst; reflexivity|reflexivity]).
    assert (VV : forall c, vfk (fupd (pr s) p q c) = vfk (pr s c)) by (intros c; unfold fupd; destruct (c =? p) eqn:X; [apply Z.eqb_eq in X; subst; reflexivity|reflexivity]).
    assert (VS : forall c, vfs (fupd (pr s) p q c) = vfs (pr s c)) by (intros c; unfold fupd; destruct (c =? p) eqn:X; [apply Z.eqb_eq in X; subst; reflexivity|reflexivity]).
    assert (ZZ : forall c, stt (fupd (pr s) p q c) = Zomb <-> stt (pr s c) = Zomb) by (intros c; unfold fupd; destruct (c =? p) eqn:X; [apply Z.eqb_eq in X; subst; cbn; split; congruence|tauto]).
    assert (SS : forall c, stt (pr s c) = Stop -> stt (fupd (pr s) p q c) = Stop) by (intros c; unfold fupd; destruct (c =? p) eqn:X; [apply Z.eqb_eq in X; subst; cbn; congruence|tauto]).
    constructor; unfold child; cbn [pr liv kids wts].
    - apply I.
    - rewrite PP, VV. destruct (i_init _ s I) as (A & B & D & F). split; [exact A|]. split; [exact B|]. split; [intros X; apply D, ZZ, X|exact F].
    - intros x c. rewrite PP. apply I.
    - apply I.
    - intros c L N. rewrite PP. destruct (i_par _ s I c L N) as (A & B & [D|D]); (split; [exact A|]; split; [exact B|]); [left; intros X; apply D, ZZ, X|right; exact D].
    - intros c L. rewrite PP. apply (i_self _ s I), L.
    - intros x L. unfold fupd. destruct (x =? p); [reflexivity|]. apply (i_wo _ s I), L.
    - intros t w. unfold W, fupd. destruct (0 <? tid) eqn:T; [destruct (t =? tid) eqn:X|].
      + apply Z.eqb_eq in X. subst t. rewrite in_app_iff. cbn [In]. destruct (w =? p) eqn:Y.
        * apply Z.eqb_eq in Y. subst w. split; [intros _; split; [exact Lp|]; split; [lia|]; exists o; reflexivity|auto].
        * apply Z.eqb_neq in Y. rewrite (i_wts _ s I). split; [intros [H|[H|[]]]; [exact H|congruence]|auto].
      + apply Z.eqb_neq in X. rewrite (i_wts _ s I). destruct (w =? p) eqn:Y; [|tauto]. apply Z.eqb_eq in Y. subst w. rewrite Wp. cbn. split; intros (_ & _ & o' & H); congruence.
      + rewrite (i_wts _ s I). destruct (w =? p) eqn:Y; [|tauto]. apply Z.eqb_eq in Y. subst w. rewrite Wp. cbn. split; intros (_ & H0 & o' & H); [congruence|]. inversion H. lia.
    - intros t. unfold W, fupd. destruct (0 <? tid); [destruct (t =? tid)|]; try apply I. apply nodup_snoc; [apply I|]. intros H. apply (i_wts _ s I) in H. destruct H as (_ & _ & o' & H). congruence.
    - intros w t o' L. rewrite PP. unfold fupd. destruct (w =? p) eqn:Y; [apply Z.eqb_eq in Y; subst w; cbn; intros H T; inversion H; subst; apply C, T|]. apply (i_tgt _ s I), L.
    - intros c L D. rewrite VV, PP, VS. intros V. destruct (i_vfk _ s I c L) as [A B]; auto. destruct D as [D|D]; [left|auto]. intros X. apply D, ZZ, X.
    - intros c d Lc Ld Dc Dd. rewrite !VV, !PP. apply (i_vfu _ s I c d Lc Ld).
      + destruct Dc as [D|D]; [left; intros X; apply D, ZZ, X|auto].
      + destruct Dd as [D|D]; [left; intros X; apply D, ZZ, X|auto].
    - intros x L. rewrite VS. intros V. apply SS, (i_vfs _ s I x L V).
  Qed.

  Lemma wait_step_ok s p tid o fault : inv (-1) s -> zs Q none s -> lifeok s -> running s p ->
    exists s' r, do_wait s p tid o fault = (s', r) /\ inv (-1) s' /\ zs Q none s' /\ lifeok s' /\ wait_ok s p tid o fault s' r.
  Proof.
    intros I Z F R. pose proof (running_wo s p I R) as [Wp Vp]. pose proof R as [Lp Rp]. unfold do_wait.
    assert (Fd : forall c b, matches s p tid c -> changed (pr s c) o = Some b ->
      exists s' r, (let s := upd s c (p_srep b (pr s c)) in let r := if fault then EFAULT else c in
         if st_eqb (stt (pr s c)) Zomb then (log (remove s c) (if fault then ELost p c else EReaped p c (wst (pr s c))), Returns r)
         else (log s (EChange p c (wst (pr s c))), Returns r)) = (s', r) /\ inv (-1) s' /\ zs Q none s' /\ lifeok s' /\ wait_ok s p tid o fault s' r).
    { intros c b M G. cbv zeta. assert (Rp' : reportable (pr s c) o) by (apply changed_some; congruence). pose proof M as ((Lc & Pc) & M1 & M2 & M3).
      set (s1 := upd s c (p_srep b (pr s c))).
      assert (X1 : forall t, ppid (pr s1 t) = ppid (pr s t) /\ pgid (pr s1 t) = pgid (pr s t) /\ stt (pr s1 t) = stt (pr s t) /\ wst (pr s1 t) = wst (pr s t) /\ wo (pr s1 t) = wo (pr s t)) by (intros t; cbn; unfold fupd; destruct (t =? c) eqn:Y; [apply Z.eqb_eq in Y; subst; cbn; auto|auto]).
      assert (I1 : inv (-1) s1) by (apply upd_inv; auto; [intros ->; apply (i_init _ s I)|apply (i_wo _ s I), Lc|apply (i_vfs _ s I), Lc]).
      assert (Z1 : zs Q none s1) by (apply (zs_frame Q none s); auto; [intros t _; destruct (X1 t) as (A & B & _); auto|intros t _; destruct (X1 t) as (_ & _ & -> & _); auto|intros t v _; destruct (X1 t) as (_ & _ & _ & _ & ->); auto]).
      assert (Nc : c <> 1) by (intros ->; destruct (i_init _ s I) as (_ & X & _); pose proof (i_pos _ s I p Lp); lia).
      destruct (X1 c) as (Xp & _ & Xs & Xw & _). rewrite Xs, Xw. destruct (st_eqb (stt (pr s c)) Zomb) eqn:Zc.
      - apply st_eqb_eq in Zc. eexists. eexists. split; [reflexivity|]. split; [|split; [|split]].
        + apply log_inv, remove_inv; [exact I1|exact Lc|rewrite Xs; exact Zc|]. intros w o' Lw O. destruct (i_tgt _ s1 I1 w c o' Lw O) as [_ B]; [pose proof (i_pos _ s I c Lc); lia|].
          rewrite Xp, Pc in B. subst w. destruct (X1 p) as (_ & _ & _ & _ & X). congruence.
        + apply (zs_frame Q none s1); auto; cbn; intros t; unfold fupd; destruct (t =? c); auto; congruence.
        + apply (life_event s _ c (if fault then ELost p c else EReaped p c (wst (pr s c)))); [reflexivity|exact F| | |].
          * intros d Nd ph. assert (X : (c =? d) = false) by lia. destruct fault; cbn; rewrite X; reflexivity.
          * intros d Nd. cbn. rewrite !fupd_other by exact Nd. split; [reflexivity|]. intros _. split; [tauto|]. auto.
          * intros ph _ H. destruct ph as [|pp|pp w]; [cbn in H; congruence|cbn in H; tauto|]. destruct H as (_ & _ & Hw & Hp).
            exists Absent. split; [|cbn; apply fupd_same]. rewrite Pc in Hp. assert (Y : (p =? pp) || (p =? 1) = true) by (apply orb_true_iff; rewrite !Z.eqb_eq; exact Hp).
            destruct fault; cbn; rewrite Z.eqb_refl, Y; [reflexivity|]. rewrite Hw, Z.eqb_refl. reflexivity.
        + left. exists c. split; [exact M|]. split; [exact Rp'|]. split; [reflexivity|]. split; [|congruence]. intros _. split; [cbn; apply fupd_same|]. split; [intros t Nt; cbn; apply fupd_other, Nt|reflexivity].
      - apply st_eqb_neq in Zc. eexists. eexists. split; [reflexivity|]. split; [apply log_inv, I1|]. split; [exact Z1|]. split.
        + apply (life_event s _ c (EChange p c (wst (pr s c)))); [reflexivity|exact F| | |].
          * intros d Nd ph. cbn. assert (X : (c =? d) = false) by lia. rewrite X. reflexivity.
          * intros d Nd. cbn. rewrite fupd_other by exact Nd. split; [reflexivity|]. intros _. split; [tauto|]. auto.
          * intros ph _ H. destruct ph as [|pp|pp w]; cbn in H; [congruence| |tauto]. exists (Alive pp). destruct H as (A & B & D). rewrite Pc in D.
            assert (Y : (p =? pp) || (p =? 1) = true) by (apply orb_true_iff; rewrite !Z.eqb_eq; exact D).
            split; [cbn; rewrite Z.eqb_refl, Y; reflexivity|]. split; [exact A|]. split; [change (stt (pr s1 c) <> Zomb); congruence|change (ppid (pr s1 c) = pp \/ ppid (pr s1 c) = 1); rewrite Xp, Pc; exact D].
        + left. exists c. split; [exact M|]. split; [exact Rp'|]. split; [reflexivity|]. split; [congruence|]. intros _. split; [reflexivity|]. split; [reflexivity|]. cbn. rewrite fupd_same. cbn. exact (changed_srep (pr s c) o b G Zc). }
    assert (Ns : (0 < tid -> child s p tid) -> (forall c, matches s p tid c -> changed (pr s c) o = None) -> (exists c, matches s p tid c) ->
      exists s' r, (if nohang o then (s, Returns 0) else
        (let s := if 0 <? tid then mk (pr s) (liv s) (kids s) (fupd (wts s) tid (wts s tid ++ [p])) (hist s) else s in
         (upd s p (p_state Sleep (p_wo (Some (tid, o)) (pr s p))), Sleeps))) = (s', r) /\ inv (-1) s' /\ zs Q none s' /\ lifeok s' /\ wait_ok s p tid o fault s' r).
    { intros C NC Ex. assert (NR : forall c, matches s p tid c -> ~ reportable (pr s c) o) by (intros c M G; apply changed_some in G; apply G, NC, M).
      destruct (nohang o) eqn:NH.
      - exists s, (Returns 0). split; [reflexivity|]. split; [exact I|]. split; [exact Z|]. split; [exact F|]. right. right. left. auto 10.
      - pose proof (sleep_inv s p tid o I R C) as I'. cbv zeta.
        set (s1 := if 0 <? tid then mk (pr s) (liv s) (kids s) (fupd (wts s) tid (wts s tid ++ [p])) (hist s) else s) in *.
        assert (Ep : pr s1 = pr s) by (unfold s1; destruct (0 <? tid); reflexivity). assert (El : liv s1 = liv s) by (unfold s1; destruct (0 <? tid); reflexivity). assert (Eh : hist s1 = hist s) by (unfold s1; destruct (0 <? tid); reflexivity).
        rewrite Ep. set (q := p_state Sleep (p_wo (Some (tid, o)) (pr s p))) in *. eexists. eexists. split; [reflexivity|]. split; [exact I'|].
        assert (X1 : forall t, ppid (fupd (pr s) p q t) = ppid (pr s t) /\ pgid (fupd (pr s) p q t) = pgid (pr s t) /\ wst (fupd (pr s) p q t) = wst (pr s t) /\ (stt (fupd (pr s) p q t) = Zomb <-> stt (pr s t) = Zomb)).
        { intros t. unfold fupd. destruct (t =? p) eqn:Y; [apply Z.eqb_eq in Y; subst; cbn; repeat split; congruence|tauto]. }
        split; [|split].
        + intros w tid' o' c Lw O T M D. cbn in Lw, O, D. rewrite Ep in O, D. rewrite El in Lw. assert (M' : matches s w tid' c).
          { destruct M as ((A & B) & M1 & M2 & M3). cbn in A, B, M1, M2, M3. rewrite El in A. rewrite Ep in B, M2, M3. destruct (X1 c) as (Y1 & Y2 & _). destruct (X1 w) as (_ & Y3 & _). rewrite Y1 in B. rewrite Y2, Y3 in M2. rewrite Y2 in M3. split; [split; assumption|]. auto. }
          destruct (X1 c) as (_ & _ & _ & Y4). apply Y4 in D. unfold fupd in O. destruct (w =? p) eqn:Y.
          * apply Z.eqb_eq in Y. subst w. cbn in O. inversion O; subst tid' o'. exfalso. apply (NR c M'). left. exact D.
          * apply (Z w tid' o' c); assumption.
        + apply (life_frame s); [cbn; exact Eh|intros t; cbn; rewrite El; reflexivity| | | |exact F]; intros t _; cbn; rewrite Ep; destruct (X1 t) as (Y1 & _ & Y3 & Y4); auto.
        + right. right. right. split; [reflexivity|]. split; [exact NH|]. split; [exact Ex|]. split; [exact NR|]. cbn. rewrite Ep, El, Eh, fupd_same. auto. }
    destruct (0 <? tid) eqn:T.
    - destruct (liv s tid && (ppid (pr s tid) =? p)) eqn:Ch; cbn [negb].
      + apply andb_true_iff in Ch. destruct Ch as [Lc Pc]. apply Z.eqb_eq in Pc. assert (M : matches s p tid tid) by (split; [split; assumption|]; split; [reflexivity|]; split; intros; lia).
        destruct (changed (pr s tid) o) as [b|] eqn:G; [apply (Fd tid b M G)|]. cbn [Z.eqb].
        apply Ns; [intros; apply M|intros c (_ & X & _); rewrite (X ltac:(lia)); exact G|exists tid; exact M].
      + exists s, (Returns ECHILD). split; [reflexivity|]. split; [exact I|]. split; [exact Z|]. split; [exact F|]. right. left. split; [reflexivity|]. split; [reflexivity|].
        intros c ((A & B) & X & _). rewrite (X ltac:(lia)) in *. rewrite A, B, Z.eqb_refl in Ch. discriminate.
    - pose proof (search_ok s p tid o (kids s p) 0 (fun c H => proj1 (i_kids _ s I p c) H)) as S.
      destruct (search s p tid o (kids s p) 0) as [[[c b]|] n].
      + apply (Fd c b); apply S.
      + destruct S as (A & B & C & D). destruct (n =? 0) eqn:N0.
        * exists s, (Returns ECHILD). split; [reflexivity|]. split; [exact I|]. split; [exact Z|]. split; [exact F|]. right. left. split; [reflexivity|]. split; [reflexivity|].
          intros c M. apply (B ltac:(lia) c); [|exact M]. apply (i_kids _ s I), M.
        * apply Ns; [lia|intros c M; apply D; [apply (i_kids _ s I), M|exact M]|]. destruct (C ltac:(lia)) as (c & _ & M). exists c. exact M.
  Qed.

  Lemma woken_awake q : stt (woken q) <> Sleep.
  Proof. cbn. destruct (spend q); discriminate. Qed.
  Definition ok3 (s : st) : Prop := inv (-1) s /\ zs Q none s /\ lifeok s.

  Lemma upd_ok s t q : ok3 s -> liv s t = true -> ppid q = ppid (pr s t) -> pgid q = pgid (pr s t) -> wo q = wo (pr s t) ->
    (stt q = Zomb <-> stt (pr s t) = Zomb) -> (stt (pr s t) = Zomb -> wst q = wst (pr s t)) ->
    (wo q <> None -> stt q = Sleep) -> (vfs q = true -> stt q = Stop) -> (vfs (pr s t) = true -> vfs q = true) ->
    (vfk q = true -> vfk (pr s t) = true) -> ok3 (upd s t q).
  Proof.
    intros (I & Z & F) Lt Hp Hg Hw Hz Hs W1 V1 V2 V3. split; [|split].
    - apply upd_inv; auto; try tauto. intros ->. destruct (i_init _ s I) as (_ & _ & X & _). tauto.
    - apply (zs_frame Q none s); auto; cbn; intros u; unfold fupd; destruct (u =? t) eqn:E; auto; apply Z.eqb_eq in E; subst u; intros; rewrite ?Hp, ?Hg; try tauto. rewrite <- Hw. assumption.
    - apply (life_frame s); auto; cbn; intros u; unfold fupd; destruct (u =? t) eqn:E; auto; try tauto; apply Z.eqb_eq in E; subst u; intros; auto.
  Qed.
  Lemma wk_ok3 s s' : wk s s' -> inv (-1) s' -> ok3 s -> ok3 s'.
  Proof. intros K I' (I & Z & F). split; [exact I'|]. split; [apply (zs_wk Q none s s' K Z)|apply (life_wk s s' K F)]. Qed.

  Lemma fork_ok s p c v : ok3 s -> running s p -> liv s c = false -> 1 < c -> exists s', step s (Fork p c v) = Ok s' None /\ ok3 s' /\ hist s' = EFork p c :: hist s /\
    liv s' c = true /\ ppid (pr s' c) = p /\ stt (pr s' c) = Run /\ areap (pr s' c) = false /\ (forall t, t <> c -> liv s' t = liv s t /\ areap (pr s' t) = areap (pr s t)) .
  Proof.
    intros (I & Z & F) R Lc C1. pose proof (running_wo s p I R) as [Wp Vp]. pose proof R as [Lp Rp].
    cbn [step]. set (q := P p (pgid (pr s p)) Run (spend (pr s p)) (vfs (pr s p)) v (srep (pr s p)) (wst (pr s p)) (ign (pr s p)) false None).
    set (s1 := if v then _ else _). assert (Ncp : c <> p) by congruence.
    assert (Ec : pr s1 c = q). { unfold s1. destruct v; cbn; rewrite ?fupd_other by exact Ncp; apply fupd_same. }
    assert (Ep : pr s1 p = if v then p_state Stop (p_vfs true (pr s p)) else pr s p). { unfold s1. destruct v; cbn; rewrite ?fupd_same, ?fupd_other by congruence; reflexivity. }
    assert (Eo : forall t, t <> c -> t <> p -> pr s1 t = pr s t). { intros t H1 H2. unfold s1. destruct v; cbn; rewrite ?fupd_other by congruence; reflexivity. }
    assert (Ll : liv s1 = fupd (liv s) c true) by (unfold s1; destruct v; reflexivity).
    assert (Kk : kids s1 = fupd (fupd (kids s) c []) p (fupd (kids s) c [] p ++ [c])) by (unfold s1; destruct v; reflexivity).
    assert (Ww : wts s1 = fupd (wts s) c []) by (unfold s1; destruct v; reflexivity).
    assert (Hh : hist s1 = EFork p c :: hist s) by (unfold s1; destruct v; reflexivity). clearbody s1.
    assert (Lt : forall t, t <> c -> liv s1 t = liv s t) by (intros t H; rewrite Ll; apply fupd_other, H).
    assert (Lcc : liv s1 c = true) by (rewrite Ll; apply fupd_same).
    assert (Lo : forall t, liv s1 t = true -> t = c \/ (t <> c /\ liv s t = true)) by (intros t H; destruct (Z.eq_dec t c); [auto|right; rewrite Lt in H; auto]).
    assert (PP : forall t, t <> c -> ppid (pr s1 t) = ppid (pr s t)) by (intros t H; destruct (Z.eq_dec t p) as [->|E]; [rewrite Ep; destruct v; reflexivity|rewrite Eo by assumption; reflexivity]).
    assert (GG : forall t, t <> c -> pgid (pr s1 t) = pgid (pr s t)) by (intros t H; destruct (Z.eq_dec t p) as [->|E]; [rewrite Ep; destruct v; reflexivity|rewrite Eo by assumption; reflexivity]).
    assert (VV : forall t, t <> c -> vfk (pr s1 t) = vfk (pr s t)) by (intros t H; destruct (Z.eq_dec t p) as [->|E]; [rewrite Ep; destruct v; reflexivity|rewrite Eo by assumption; reflexivity]).
    assert (WW : forall t, t <> c -> wo (pr s1 t) = wo (pr s t)) by (intros t H; destruct (Z.eq_dec t p) as [->|E]; [rewrite Ep; destruct v; reflexivity|rewrite Eo by assumption; reflexivity]).
    assert (TT : forall t, t <> c -> wst (pr s1 t) = wst (pr s t)) by (intros t H; destruct (Z.eq_dec t p) as [->|E]; [rewrite Ep; destruct v; reflexivity|rewrite Eo by assumption; reflexivity]).
    assert (AA : forall t, t <> c -> areap (pr s1 t) = areap (pr s t)) by (intros t H; destruct (Z.eq_dec t p) as [->|E]; [rewrite Ep; destruct v; reflexivity|rewrite Eo by assumption; reflexivity]).
    assert (ZZ : forall t, t <> c -> stt (pr s1 t) = Zomb <-> stt (pr s t) = Zomb) by (intros t H; destruct (Z.eq_dec t p) as [->|E]; [rewrite Ep, Rp; destruct v; cbn; split; congruence|rewrite Eo by assumption; tauto]).
    assert (SS : forall t, t <> c -> stt (pr s t) = Stop -> vfs (pr s t) = true -> stt (pr s1 t) = Stop /\ vfs (pr s1 t) = true) by (intros t H; destruct (Z.eq_dec t p) as [->|E]; [congruence|rewrite Eo by assumption; auto]).
    assert (Pnc : forall t, liv s t = true -> ppid (pr s t) <> c).
    { intros t L E. destruct (Z.eq_dec t 1) as [->|N]; [destruct (i_init _ s I); lia|]. destruct (i_par _ s I t L N) as (_ & X & _). congruence. }
    assert (Vno : forall t, liv s t = true -> stt (pr s t) <> Zomb -> vfk (pr s t) = true -> ppid (pr s t) <> p).
    { intros t L D V E. destruct (i_vfk _ s I t L (or_introl D) V) as [_ X]. congruence. }
    assert (Kc : kids s c = []).
    { destruct (kids s c) as [|x l] eqn:K; [reflexivity|exfalso]. assert (X : In x (kids s c)) by (rewrite K; left; reflexivity). apply (i_kids _ s I) in X. destruct X as [X1 X2]. exact (Pnc x X1 X2). }
    assert (Wc : wts s c = []).
    { destruct (wts s c) as [|x l] eqn:K; [reflexivity|exfalso]. assert (X : In x (wts s c)) by (rewrite K; left; reflexivity). apply (i_wts _ s I) in X. destruct X as (X1 & _ & o & X2). destruct (i_tgt _ s I x c o X1 X2); [lia|congruence]. }
    assert (C1' : 1 <> c) by lia.
    exists s1. split; [reflexivity|]. split; [split; [|split]|].
    - constructor; unfold child.
      + intros t L. destruct (Lo t L) as [->|[_ L']]; [lia|apply (i_pos _ s I), L'].
      + rewrite Lt, PP, VV, (ZZ 1 C1') by exact C1'. apply I.
      + intros x t. rewrite Kk. unfold fupd. assert (Y : (p =? c) = false) by lia. rewrite Y. destruct (x =? p) eqn:Xp; [apply Z.eqb_eq in Xp; subst x|apply Z.eqb_neq in Xp; destruct (x =? c) eqn:Xc; [apply Z.eqb_eq in Xc; subst x|apply Z.eqb_neq in Xc]].
        * rewrite in_app_iff. cbn [In]. destruct (Z.eq_dec t c) as [->|Nt]; [rewrite Ec; cbn; tauto|]. rewrite Lt, PP, (i_kids _ s I) by exact Nt. unfold child. intuition congruence.
        * split; [intros []|]. intros [L E]. destruct (Lo t L) as [->|[Nt L']]; [rewrite Ec in E; cbn in E; congruence|]. rewrite PP in E by exact Nt. exact (Pnc t L' E).
        * rewrite (i_kids _ s I). unfold child. destruct (Z.eq_dec t c) as [->|Nt]; [rewrite Lc, Ec; cbn; intuition congruence|]. rewrite Lt, PP by exact Nt. tauto.
      + intros x. rewrite Kk. unfold fupd. assert (Y : (p =? c) = false) by lia. rewrite Y. destruct (x =? p); [|destruct (x =? c); [constructor|apply I]]. apply nodup_snoc; [apply I|]. intros H. apply (i_kids _ s I) in H. destruct H. congruence.
      + intros t L N. destruct (Lo t L) as [->|[Nt L']].
        * rewrite Ec. cbn. rewrite Lt by congruence. split; [apply (i_pos _ s I), Lp|]. split; [exact Lp|]. left. rewrite ZZ by congruence. congruence.
        * rewrite PP by exact Nt. destruct (i_par _ s I t L' N) as (A & B & D). rewrite Lt by (apply Pnc, L'). split; [exact A|]. split; [exact B|]. rewrite ZZ by (apply Pnc, L'). exact D.
      + intros t L. destruct (Lo t L) as [->|[Nt L']]; [rewrite Ec; cbn; congruence|rewrite PP by exact Nt; apply (i_self _ s I), L'].
      + intros t L. destruct (Lo t L) as [->|[Nt L']]; [rewrite Ec; cbn; congruence|]. rewrite WW by exact Nt. intros H. destruct (Z.eq_dec t p) as [->|E]; [congruence|]. rewrite Eo by assumption. apply (i_wo _ s I); assumption.
      + intros t w. rewrite Ww. unfold fupd. destruct (t =? c) eqn:Tc.
        * apply Z.eqb_eq in Tc. subst t. split; [intros []|]. intros (L & _ & o & O). destruct (Lo w L) as [->|[Nw L']]; [rewrite Ec in O; discriminate|]. rewrite WW in O by exact Nw. destruct (i_tgt _ s I w c o L' O); [lia|congruence].
        * rewrite (i_wts _ s I). destruct (Z.eq_dec w c) as [->|Nw].
          -- rewrite Lc, Ec. cbn. split; [intros (X & _); discriminate|intros (_ & _ & o & X); discriminate].
          -- rewrite Lt, WW by exact Nw. tauto.
      + intros t. rewrite Ww. unfold fupd. destruct (t =? c); [constructor|apply I].
      + intros w t o L O T. destruct (Lo w L) as [->|[Nw L']]; [rewrite Ec in O; discriminate|]. rewrite WW in O by exact Nw. destruct (i_tgt _ s I w t o L' O T) as [A B].
        assert (Nt : t <> c) by congruence. rewrite Lt, PP by exact Nt. auto.
      + intros t L D V. destruct (Lo t L) as [->|[Nt L']].
        * rewrite Ec in V |- *. cbn in V |- *. subst v. rewrite Ep. cbn. auto.
        * rewrite VV in V by exact Nt. rewrite PP by exact Nt. rewrite ZZ in D by exact Nt. destruct (i_vfk _ s I t L' D V) as [A B]. apply SS; [apply Pnc, L'|exact A|exact B].
      + assert (One : forall d, d <> c -> liv s d = true -> stt (pr s1 d) <> Zomb \/ d = -1 -> vfk (pr s1 d) = true -> ppid (pr s1 d) = p -> False).
        { intros d Nd Ld D V E. rewrite PP in E by exact Nd. rewrite VV in V by exact Nd. destruct D as [D|D]; [|pose proof (i_pos _ s I d Ld); lia]. rewrite ZZ in D by exact Nd. exact (Vno d Ld D V E). }
        intros x y Lx Ly Dx Dy Vx Vy E. destruct (Lo x Lx) as [->|[Nx Lx']], (Lo y Ly) as [->|[Ny Ly']].
        * reflexivity.
        * exfalso. rewrite Ec in E. cbn in E. exact (One y Ny Ly' Dy Vy (eq_sym E)).
        * exfalso. rewrite Ec in E. cbn in E. exact (One x Nx Lx' Dx Vx E).
        * rewrite !VV in * by assumption. rewrite !PP in E by assumption. rewrite ZZ in Dx, Dy by assumption. apply (i_vfu _ s I x y); assumption.
      + intros t L V. destruct (Lo t L) as [->|[Nt L']]; [rewrite Ec in V; cbn in V; congruence|]. destruct (Z.eq_dec t p) as [->|E]; [rewrite Ep in *; destruct v; [reflexivity|congruence]|]. rewrite Eo in * by assumption. apply (i_vfs _ s I t L' V).
    - intros w tid o d Lw O T M D. destruct M as ((Ld & Pd) & M1 & M2 & M3).
      assert (Nd : d <> c) by (intros ->; rewrite Ec in D; discriminate). destruct (Lo w Lw) as [->|[Nw Lw']]; [rewrite Ec in O; discriminate|].
      rewrite WW in O by exact Nw. rewrite Lt in Ld by exact Nd. rewrite PP in Pd by exact Nd. rewrite GG in M2, M3 by exact Nd. rewrite GG in M2 by exact Nw. rewrite ZZ in D by exact Nd.
      apply (Z w tid o d Lw' O T); [|exact D]. split; [split; assumption|]. auto.
    - apply (life_event s s1 c (EFork p c)); [exact Hh|exact F| | |].
      + intros d Nd ph. cbn. assert (X : (c =? d) = false) by lia. rewrite X. reflexivity.
      + intros d Nd. rewrite Lt by exact Nd. split; [reflexivity|]. intros _. rewrite (ZZ d Nd), TT, PP by exact Nd. split; [tauto|]. auto.
      + intros ph _ H. destruct ph as [|pp|pp w]; cbn in H; [|exfalso; destruct H; congruence|exfalso; destruct H; congruence]. exists (Alive p). split; [cbn; rewrite Z.eqb_refl; reflexivity|]. split; [exact Lcc|]. rewrite Ec. cbn. split; [discriminate|auto].
    - rewrite Ec. cbn. split; [exact Hh|]. split; [exact Lcc|]. split; [reflexivity|]. split; [reflexivity|]. split; [reflexivity|]. intros t Nt. split; [apply Lt, Nt|apply AA, Nt].
  Qed.

  Lemma exec_ok s p : ok3 s -> running s p -> exists s', step s (Exec p) = Ok s' None /\ ok3 s' /\ hist s' = hist s /\ liv s' = liv s /\ forall t, areap (pr s' t) = areap (pr s t).
  Proof.
    intros (I & Z & F) R. pose proof R as [Lp Rp]. cbn [step]. destruct (vfk (pr s p)) eqn:V; [|exists s; split; [reflexivity|]; split; [split; [|split]; assumption|auto]].
    destruct (i_vfk _ s I p Lp) as [C1 C2]; [left; congruence|exact V|]. set (par := ppid (pr s p)) in *.
    assert (N1 : p <> 1) by (intros ->; destruct (i_init _ s I) as (_ & _ & _ & X); congruence).
    assert (Lpar : liv s par = true) by (apply (i_par _ s I p Lp N1)).
    assert (Np : par <> p) by (apply (i_self _ s I), Lp).
    unfold unblock. fold par. rewrite V, Lpar, C1, C2. cbn [andb st_eqb]. set (s1 := upd s par (p_state Run (p_vfs false (pr s par)))).
    assert (E1 : pr s1 p = pr s p) by (cbn; apply fupd_other; congruence). rewrite E1.
    eexists. split; [reflexivity|].
    set (s2 := upd s1 p (p_vfk false (pr s p))).
    assert (X2 : forall t, ppid (pr s2 t) = ppid (pr s t) /\ pgid (pr s2 t) = pgid (pr s t) /\ wst (pr s2 t) = wst (pr s t) /\ wo (pr s2 t) = wo (pr s t) /\ areap (pr s2 t) = areap (pr s t) /\ (stt (pr s2 t) = Zomb <-> stt (pr s t) = Zomb)).
    { intros t. cbn. unfold fupd. destruct (t =? p) eqn:A; [apply Z.eqb_eq in A; subst t; cbn; repeat split; auto|]. destruct (t =? par) eqn:B; [apply Z.eqb_eq in B; subst t; cbn; repeat split; congruence|repeat split; auto]. }
    split; [split; [|split]|].
    - set (sa := upd s p (p_vfk false (pr s p))). assert (Ia : inv (-1) sa) by (apply upd_inv; auto; try (cbn; congruence); [apply (i_wo _ s I), Lp|apply (i_vfs _ s I), Lp]).
      assert (Ea : pr sa par = pr s par) by (cbn; apply fupd_other, Np).
      apply (inv_ext (-1) (upd sa par (p_state Run (p_vfs false (pr sa par))))); try reflexivity.
      + intros t. rewrite Ea. cbn. unfold fupd. destruct (t =? p) eqn:A, (t =? par) eqn:B; try reflexivity. lia.
      + apply free_parent_inv; [exact Ia|exact Lpar|rewrite Ea; exact C1|]. intros d Ld Nz Vd Pd. cbn in Ld, Nz, Vd, Pd. unfold fupd in Nz, Vd, Pd. destruct (d =? p) eqn:A; [discriminate|]. apply Z.eqb_neq in A.
        apply A. symmetry. apply (i_vfu _ s I p d); auto; left; congruence.
    - apply (zs_frame Q none s); auto; intros t; intros; destruct (X2 t) as (A & B & _ & D & _ & G); auto; [tauto|congruence].
    - apply (life_frame s); auto; intros t _; destruct (X2 t) as (A & B & C & D & _ & G); auto.
    - split; [reflexivity|]. split; [reflexivity|]. intros t. apply X2.
  Qed.

  Lemma stop_ok s t sig : ok3 s -> liv s t = true -> stt (pr s t) <> Zomb ->
    exists s', do_stop s t sig = Some s' /\ ok3 s' /\ hist s' = hist s /\ liv s' = liv s /\ (forall u, areap (pr s' u) = areap (pr s u)) /\
      (forall tid o, wo (pr s (ppid (pr s t))) = Some (tid, o) -> liv s (ppid (pr s t)) = true -> tid <> 0 -> matches s (ppid (pr s t)) tid t -> untraced o = true -> stt (pr s' (ppid (pr s t))) <> Sleep) /\ stopped_now (pr s' t).
  Proof.
    intros O3 Lt Nz. pose proof O3 as (I & Z & F). unfold do_stop. set (s0 := upd s t (p_wst (stopcode sig) (pr s t))).
    assert (O0 : ok3 s0) by (apply upd_ok; auto; try reflexivity; try (cbn; tauto); [apply (i_wo _ s I), Lt|apply (i_vfs _ s I), Lt]).
    assert (X0 : forall u, ppid (pr s0 u) = ppid (pr s u) /\ pgid (pr s0 u) = pgid (pr s u) /\ wo (pr s0 u) = wo (pr s u) /\ areap (pr s0 u) = areap (pr s u) /\ stt (pr s0 u) = stt (pr s u)).
    { intros u. cbn. unfold fupd. destruct (u =? t) eqn:A; [apply Z.eqb_eq in A; subst u; cbn; auto|auto]. }
    destruct (wake_waiting_ok (-1) s0 t stopped) as (s1 & E1 & I1 & K1 & G1); [apply O0|exact Lt|]. rewrite E1.
    assert (O1 : ok3 s1) by (apply (wk_ok3 s0 s1 K1 I1 O0)). assert (L1 : liv s1 t = true) by (destruct K1 as (-> & _); exact Lt).
    assert (Z1 : stt (pr s1 t) <> Zomb) by (rewrite (wk_zomb s0 s1 K1); destruct (X0 t) as (_ & _ & _ & _ & ->); exact Nz).
    assert (Np : ppid (pr s t) <> t) by (apply (i_self _ s I), Lt).
    assert (W : forall s', (forall u, u <> t -> pr s' u = pr s1 u) -> forall tid o, wo (pr s (ppid (pr s t))) = Some (tid, o) -> liv s (ppid (pr s t)) = true -> tid <> 0 -> matches s (ppid (pr s t)) tid t -> untraced o = true -> stt (pr s' (ppid (pr s t))) <> Sleep).
    { intros s' E tid o O Lp T M U Sl. rewrite E in Sl by exact Np. destruct (X0 t) as (Y & Y' & _). rewrite Y in G1. set (par := ppid (pr s t)) in *. destruct (X0 par) as (_ & Yg & Yw & _).
      pose proof K1 as (_ & _ & _ & KK). destruct (KK par) as [Q2|(_ & _ & Q2)]; [|rewrite Q2 in Sl; exact (woken_awake _ Sl)].
      assert (X : good o stopped = false); [|cbn in X; congruence]. apply (G1 tid o); [rewrite Q2, Yw; exact O|exact Lp|exact T|]. destruct M as (_ & M1 & M2 & M3). split; [split; [exact Lt|exact Y]|]. rewrite Y', Yg. auto. }
    assert (A1 : forall u, areap (pr s1 u) = areap (pr s u)) by (intros u; rewrite (wk_areap s0 s1 K1); apply X0).
    assert (H1 : hist s1 = hist s) by (destruct K1 as (_ & _ & -> & _); reflexivity). assert (LL : liv s1 = liv s) by (destruct K1 as (-> & _); reflexivity).
    destruct (stt (pr s1 t)) eqn:S1; [| | |congruence]; (eexists; split; [reflexivity|]).
    - split; [apply upd_ok; auto; try reflexivity; try (cbn; congruence); [cbn; rewrite S1; split; discriminate|intros X; pose proof (i_wo _ s1 (proj1 O1) t L1 X); congruence]|].
      split; [exact H1|]. split; [exact LL|]. split; [intros u; cbn; unfold fupd; destruct (u =? t) eqn:A; [apply Z.eqb_eq in A; subst; apply A1|apply A1]|]. split; [apply W; intros u Nu; cbn; apply fupd_other, Nu|left; cbn; rewrite fupd_same; reflexivity].
    - split; [apply upd_ok; auto; try reflexivity; cbn; rewrite ?S1; try tauto; intros X; apply (i_vfs _ s1 (proj1 O1) t L1) in X; congruence|].
      split; [exact H1|]. split; [exact LL|]. split; [intros u; cbn; unfold fupd; destruct (u =? t) eqn:A; [apply Z.eqb_eq in A; subst; apply A1|apply A1]|]. split; [apply W; intros u Nu; cbn; apply fupd_other, Nu|right; cbn; rewrite fupd_same; auto].
    - split; [exact O1|]. split; [exact H1|]. split; [exact LL|]. split; [exact A1|]. split; [apply W; reflexivity|left; exact S1].
  Qed.

  Lemma cont_ok s t : ok3 s -> liv s t = true -> stt (pr s t) <> Zomb ->
    exists s', do_cont s t = Some s' /\ ok3 s' /\ hist s' = hist s /\ liv s' = liv s /\ (forall u, areap (pr s' u) = areap (pr s u)) /\
      (vfs (pr s t) = false -> (forall tid o, wo (pr s (ppid (pr s t))) = Some (tid, o) -> liv s (ppid (pr s t)) = true -> tid <> 0 -> matches s (ppid (pr s t)) tid t -> continued o = true -> stt (pr s' (ppid (pr s t))) <> Sleep) /\ ~ stopped_now (pr s' t)).
  Proof.
    intros O3 Lt Nz. pose proof O3 as (I & Z & F). unfold do_cont. destruct (vfs (pr s t)) eqn:VF; [exists s; split; [reflexivity|]; split; [exact O3|]; split; [reflexivity|]; split; [reflexivity|]; split; [reflexivity|discriminate]|].
    set (s0 := upd s t (p_wst 65535 (pr s t))).
    assert (O0 : ok3 s0) by (apply upd_ok; auto; try reflexivity; try (cbn; tauto); [apply (i_wo _ s I), Lt|cbn; congruence]).
    assert (X0 : forall u, ppid (pr s0 u) = ppid (pr s u) /\ pgid (pr s0 u) = pgid (pr s u) /\ wo (pr s0 u) = wo (pr s u) /\ areap (pr s0 u) = areap (pr s u) /\ stt (pr s0 u) = stt (pr s u) /\ vfs (pr s0 u) = vfs (pr s u)).
    { intros u. cbn. unfold fupd. destruct (u =? t) eqn:A; [apply Z.eqb_eq in A; subst u; cbn; auto 10|auto 10]. }
    destruct (wake_waiting_ok (-1) s0 t cont) as (s1 & E1 & I1 & K1 & G1); [apply O0|exact Lt|]. rewrite E1.
    assert (O1 : ok3 s1) by (apply (wk_ok3 s0 s1 K1 I1 O0)). assert (L1 : liv s1 t = true) by (destruct K1 as (-> & _); exact Lt).
    assert (Z1 : stt (pr s1 t) <> Zomb) by (rewrite (wk_zomb s0 s1 K1); destruct (X0 t) as (_ & _ & _ & _ & -> & _); exact Nz).
    assert (V1 : vfs (pr s1 t) = false) by (rewrite (wk_vfs s0 s1 K1); destruct (X0 t) as (_ & _ & _ & _ & _ & ->); exact VF).
    assert (Np : ppid (pr s t) <> t) by (apply (i_self _ s I), Lt).
    assert (W : forall s', (forall u, u <> t -> pr s' u = pr s1 u) -> forall tid o, wo (pr s (ppid (pr s t))) = Some (tid, o) -> liv s (ppid (pr s t)) = true -> tid <> 0 -> matches s (ppid (pr s t)) tid t -> continued o = true -> stt (pr s' (ppid (pr s t))) <> Sleep).
    { intros s' E tid o O Lp T M U Sl. rewrite E in Sl by exact Np. destruct (X0 t) as (Y & Y' & _). rewrite Y in G1. set (par := ppid (pr s t)) in *. destruct (X0 par) as (_ & Yg & Yw & _).
      pose proof K1 as (_ & _ & _ & KK). destruct (KK par) as [Q2|(_ & _ & Q2)]; [|rewrite Q2 in Sl; exact (woken_awake _ Sl)].
      assert (X : good o cont = false); [|cbn in X; congruence]. apply (G1 tid o); [rewrite Q2, Yw; exact O|exact Lp|exact T|]. destruct M as (_ & M1 & M2 & M3). split; [split; [exact Lt|exact Y]|]. rewrite Y', Yg. auto. }
    assert (A1 : forall u, areap (pr s1 u) = areap (pr s u)) by (intros u; rewrite (wk_areap s0 s1 K1); apply X0).
    assert (H1 : hist s1 = hist s) by (destruct K1 as (_ & _ & -> & _); reflexivity). assert (LL : liv s1 = liv s) by (destruct K1 as (-> & _); reflexivity).
    destruct (stt (pr s1 t)) eqn:S1; [| | |congruence]; (eexists; split; [reflexivity|]).
    - split; [exact O1|]. split; [exact H1|]. split; [exact LL|]. split; [exact A1|]. intros _. split; [apply W; reflexivity|]. intros [X|[X _]]; congruence.
    - destruct (spend (pr s1 t)) eqn:SP.
      + split; [apply upd_ok; auto; try reflexivity; cbn; rewrite ?S1; try tauto; congruence|].
        split; [exact H1|]. split; [exact LL|]. split; [intros u; cbn; unfold fupd; destruct (u =? t) eqn:A; [apply Z.eqb_eq in A; subst; apply A1|apply A1]|]. intros _. split; [apply W; intros u Nu; cbn; apply fupd_other, Nu|].
        unfold stopped_now. cbn. rewrite fupd_same. cbn. rewrite S1. intuition congruence.
      + split; [exact O1|]. split; [exact H1|]. split; [exact LL|]. split; [exact A1|]. intros _. split; [apply W; reflexivity|]. unfold stopped_now. intuition congruence.
    - split; [apply upd_ok; auto; try reflexivity; try (cbn; congruence); [cbn; rewrite S1; split; discriminate|intros X; pose proof (i_wo _ s1 (proj1 O1) t L1 X); congruence]|].
      split; [exact H1|]. split; [exact LL|]. split; [intros u; cbn; unfold fupd; destruct (u =? t) eqn:A; [apply Z.eqb_eq in A; subst; apply A1|apply A1]|]. intros _. split; [apply W; intros u Nu; cbn; apply fupd_other, Nu|].
      unfold stopped_now. cbn. rewrite fupd_same. cbn. intuition congruence.
  Qed.

  Lemma sigwake_ok s t b : ok3 s -> liv s t = true -> stt (pr s t) <> Zomb -> ok3 (sig_wake s t b) /\ hist (sig_wake s t b) = hist s /\ liv (sig_wake s t b) = liv s /\ forall u, areap (pr (sig_wake s t b) u) = areap (pr s u).
  Proof.
    intros O3 Lt Nz. pose proof O3 as (I & Z & F). unfold sig_wake. destruct (vfs (pr s t)) eqn:VF; [auto|].
    set (s0 := upd s t (p_spend false (pr s t))). assert (E0 : pr s0 t = p_spend false (pr s t)) by (cbn; apply fupd_same).
    assert (O0 : ok3 s0) by (apply upd_ok; auto; try reflexivity; try (cbn; tauto); [apply (i_wo _ s I), Lt|cbn; congruence]).
    assert (A0 : forall u, areap (pr s0 u) = areap (pr s u)) by (intros u; cbn; unfold fupd; destruct (u =? t) eqn:A; [apply Z.eqb_eq in A; subst; reflexivity|reflexivity]).
    destruct (stt (pr s0 t)) eqn:S0; [auto| | |auto].
    - destruct b; [|auto]. pose proof (wk_wake s0 t Lt S0) as K. split; [apply (wk_ok3 s0 _ K); [apply wake_up_inv; [apply O0|exact Lt|exact S0]|exact O0]|].
      split; [destruct K as (_ & _ & -> & _); reflexivity|]. split; [destruct K as (-> & _); reflexivity|]. intros u. rewrite (wk_areap _ _ K). apply A0.
    - split; [|split; [reflexivity|]; split; [reflexivity|]; intros u; rewrite <- (A0 u); change (areap (fupd (pr s0) t (p_state Run (pr s0 t)) u) = areap (pr s0 u)); destruct (Z.eq_dec u t) as [->|A]; [rewrite fupd_same; reflexivity|rewrite fupd_other by exact A; reflexivity]].
      apply upd_ok; auto; rewrite ?E0; try reflexivity; try (cbn; congruence).
      + cbn. rewrite E0 in S0. cbn in S0. rewrite S0. split; discriminate.
      + intros X. pose proof (i_wo _ s0 (proj1 O0) t Lt). rewrite E0 in H. specialize (H X). rewrite E0 in S0. congruence.
  Qed.

  (** every step from a good state *)
  Definition pgid_cond (s : st) (a : action) : Prop :=
    match a with SetPgid t _ => stt (pr s t) <> Zomb \/ (forall tid, Q tid -> 0 < tid) | _ => True end.
  Lemma step_ok s a : ok3 s -> allowed s a -> pgid_cond s a ->
    exists s' r, step s a = Ok s' r /\ ok3 s' /\
      match a with
      | Fork p c _ => hist s' = EFork p c :: hist s
      | Exit p ret sig => hist s' = EExit p (exitcode ret sig) :: hist s \/ hist s' = EAuto p :: EExit p (exitcode ret sig) :: hist s
      | Wait p tid o fault => exists r', r = Some r' /\ wait_ok s p tid o fault s' r'
      | _ => hist s' = hist s
      end.
  Proof.
    intros O3 A C. pose proof O3 as (I & Z & F). destruct a as [p c v|p|p ret sig|p tid o fault|t sig|t|t b|p|p|t g|p b]; cbn [allowed] in A.
    - destruct A as (R & L & C1). destruct (fork_ok s p c v O3 R L C1) as (s' & E & O' & H & _). exists s', None. auto.
    - destruct (exec_ok s p O3 A) as (s' & E & O' & H & _). exists s', None. auto.
    - destruct A as (R & N). destruct (exit_ok s p ret sig I Z F R N) as (s' & E & I' & Z' & F' & _ & _ & _ & _ & _ & H & _). exists s', None. cbn [step]. rewrite E. split; [reflexivity|]. split; [split; [|split]; assumption|exact H].
    - destruct (wait_step_ok s p tid o fault I Z F A) as (s' & r & E & I' & Z' & F' & W). exists s', (Some r). cbn [step]. rewrite E. split; [reflexivity|]. split; [split; [|split]; assumption|]. exists r. auto.
    - destruct A as (L & N & _). destruct (stop_ok s t sig O3 L N) as (s' & E & O' & H & _). exists s', None. cbn [step]. rewrite E. auto.
    - destruct A as (L & N). destruct (cont_ok s t O3 L N) as (s' & E & O' & H & _). exists s', None. cbn [step]. rewrite E. auto.
    - destruct A as (L & N & _). destruct (sigwake_ok s t b O3 L N) as (O' & H & _). eexists. exists None. split; [reflexivity|]. auto.
    - pose proof (running_wo s p I A) as [Wp Vp]. pose proof A as [Lp Rp]. eexists. exists None. split; [reflexivity|]. split; [|reflexivity].
      apply upd_ok; auto; try reflexivity; cbn; try congruence. rewrite Rp. split; discriminate.
    - destruct A as (L & S & W). pose proof (wk_wake s p L S) as K. eexists. exists None. split; [reflexivity|]. split; [|apply K]. apply (wk_ok3 s _ K); [apply wake_up_inv; assumption|exact O3].
    - destruct A as (L & G). eexists. exists None. split; [reflexivity|]. split; [|reflexivity]. split; [|split].
      + apply upd_inv; auto; [intros ->; apply (i_init _ s I)|apply (i_wo _ s I), L|apply (i_vfs _ s I), L].
      + assert (X : forall u, ppid (fupd (pr s) t (p_pgid g (pr s t)) u) = ppid (pr s u) /\ stt (fupd (pr s) t (p_pgid g (pr s t)) u) = stt (pr s u) /\ wo (fupd (pr s) t (p_pgid g (pr s t)) u) = wo (pr s u)) by (intros u; unfold fupd; destruct (u =? t) eqn:Y; [apply Z.eqb_eq in Y; subst; cbn; auto|auto]).
        intros w tid o c Lw O T M D. cbn in Lw, O, D. destruct (X c) as (X1 & X2 & _). destruct (X w) as (_ & _ & X3). rewrite X2 in D. rewrite X3 in O. apply (Z w tid o c Lw O T); [|exact D].
        destruct M as ((Lc & Pc) & M1 & M2 & M3). cbn in Lc, Pc, M1, M2, M3. rewrite X1 in Pc. split; [split; assumption|]. split; [exact M1|]. split; [intros T0; exfalso; exact (Q0 _ T T0)|]. intros T1.
        destruct C as [C|C]; [|specialize (C tid T); lia]. specialize (M3 T1). rewrite fupd_other in M3 by congruence. exact M3.
      + apply (life_frame s); auto; cbn; intros u _; unfold fupd; (destruct (u =? t) eqn:Y; [apply Z.eqb_eq in Y; subst; cbn; auto; tauto|auto; tauto]).
    - pose proof A as [Lp Rp]. eexists. exists None. split; [reflexivity|]. split; [|reflexivity]. apply upd_ok; auto; try reflexivity; cbn; [apply (i_wo _ s I), Lp|apply (i_vfs _ s I), Lp].
  Qed.
End Steps.

Lemma init_ok Q : ok3 Q st_init.
Proof.
  split; [|split].
  - constructor; unfold child; cbn; try (intros; discriminate).
    + intros c H. lia.
    + split; [reflexivity|]. split; [reflexivity|]. split; [discriminate|reflexivity].
    + intros p c. destruct (p =? 0) eqn:E; cbn; split; try (intros []); try lia; intros; lia.
    + intros p. destruct (p =? 0); constructor; [intros []|constructor].
    + intros c H. lia.
    + intros c H. lia.
    + intros p _ H. congruence.
    + intros t w. split; [intros []|]. intros (_ & _ & o & H). discriminate.
    + intros t. constructor.
  - intros p tid o c _ H. discriminate.
  - intros c N. exists Absent. split; [reflexivity|]. cbn. lia.
Qed.
Definition qpos (t : Z) : Prop := 0 < t.
Definition qnz (t : Z) : Prop := t <> 0.
Lemma qpos0 t : qpos t -> t <> 0. Proof. unfold qpos. lia. Qed.
Lemma qpos1 t : 0 < t -> qpos t. Proof. auto. Qed.
Lemma qnz0 t : qnz t -> t <> 0. Proof. auto. Qed.
Lemma qnz1 t : 0 < t -> qnz t. Proof. unfold qnz. lia. Qed.
Lemma pos_cond s a : pgid_cond qpos s a.
Proof. destruct a; cbn; auto. Qed.
Lemma reach_ok s : reach s -> ok3 qpos s.
Proof.
  induction 1 as [|s a s' r R IH A E]; [apply init_ok|]. destruct (step_ok qpos qpos0 qpos1 s a IH A (pos_cond s a)) as (s2 & r2 & E2 & O & _). rewrite E in E2. inversion E2. subst. exact O.
Qed.
Lemma reach_z_ok s : reach_z s -> ok3 qnz s.
Proof.
  induction 1 as [|s a s' r R IH A N E]; [apply init_ok|]. destruct (step_ok qnz qnz0 qnz1 s a IH A) as (s2 & r2 & E2 & O & _); [destruct a; cbn in *; auto|]. rewrite E in E2. inversion E2. subst. exact O.
Qed.
Lemma reach_z_reach s : reach_z s -> reach s.
Proof. induction 1; [constructor|econstructor; eassumption]. Qed.

(** The theorems *)
Lemma no_failure s a : reach s -> allowed s a -> exists s' r, step s a = Ok s' r.
Proof. intros R A. destruct (step_ok qpos qpos0 qpos1 s a (reach_ok s R) A (pos_cond s a)) as (s' & r & E & _). exists s', r. exact E. Qed.
Lemma family s : reach s -> (forall p c, In c (kids s p) <-> child s p c) /\ (forall p, NoDup (kids s p)) /\
  (forall c, liv s c = true -> c <> 1 -> liv s (ppid (pr s c)) = true /\ stt (pr s (ppid (pr s c))) <> Zomb) /\ liv s 1 = true /\ stt (pr s 1) <> Zomb.
Proof.
  intros R. destruct (reach_ok s R) as (I & _). split; [apply I|]. split; [apply I|]. split.
  - intros c L N. destruct (i_par _ s I c L N) as (A & B & [D|D]); [auto|lia].
  - split; apply (i_init _ s I).
Qed.
Lemma life_of s c : reach s -> c <> 1 -> exists ph, life c (hist s) = Some ph /\ in_phase s c ph.
Proof. intros R N. destruct (reach_ok s R) as (_ & _ & F). apply F, N. Qed.
Lemma zombie_kept s a s' r c : reach s -> allowed s a -> step s a = Ok s' r -> liv s c = true -> stt (pr s c) = Zomb ->
  (liv s' c = true /\ stt (pr s' c) = Zomb /\ wst (pr s' c) = wst (pr s c)) \/
  (exists p tid o fault, a = Wait p tid o fault /\ matches s p tid c /\ r = Some (Returns (if fault then EFAULT else c)) /\ liv s' c = false).
Proof.
  intros R A E L D. pose proof (reach_ok s R) as O. assert (N1 : c <> 1) by (intros ->; destruct (i_init _ s (proj1 O)); tauto).
  destruct (step_ok qpos qpos0 qpos1 s a O A (pos_cond s a)) as (s2 & r2 & E2 & O' & H). rewrite E in E2. inversion E2. subst s2 r2. clear E2.
  destruct (life_of s c R N1) as (ph & Lf & In). assert (Dd : exists p, ph = Dead p (wst (pr s c))).
  { destruct ph as [|p|p w]; cbn in In; [congruence|tauto|]. destruct In as (_ & _ & <- & _). exists p. reflexivity. }
  destruct Dd as (p0 & ->). destruct O' as (_ & _ & F'). destruct (F' c N1) as (ph' & Lf' & In').
  assert (Same : life c (hist s') = life c (hist s) -> (liv s' c = true /\ stt (pr s' c) = Zomb /\ wst (pr s' c) = wst (pr s c))).
  { intros X. rewrite X, Lf in Lf'. inversion Lf'. subst ph'. cbn in In'. tauto. }
  destruct a as [p d v|p|p ret sig|p tid o fault|t sig|t|t b|p|p|t g|p b]; try (left; apply Same; rewrite H; reflexivity).
  - left. apply Same. rewrite H. cbn [life]. rewrite Lf. cbn. destruct (d =? c) eqn:X; [|reflexivity]. apply Z.eqb_eq in X. subst d. destruct A as (_ & A & _). congruence.
  - left. apply Same. assert (X : (p =? c) = false) by (apply Z.eqb_neq; intros ->; destruct A as ((_ & A) & _); congruence).
    destruct H as [H|H]; rewrite H; cbn [life]; rewrite Lf; cbn; rewrite !X; cbn; rewrite ?X; reflexivity.
  - destruct H as (r' & -> & W). destruct W as [(d & M & Rp & Er & W1 & W2)|[(_ & -> & _)|[(_ & -> & _)|(_ & _ & _ & _ & _ & _ & _ & H)]]].
    + destruct (Z.eq_dec d c) as [->|Nd].
      * right. exists p, tid, o, fault. split; [reflexivity|]. split; [exact M|]. rewrite Er. split; [reflexivity|]. apply W1, D.
      * left. apply Same. assert (X : (d =? c) = false) by (apply Z.eqb_neq; exact Nd). destruct (stt (pr s d)) eqn:S.
        1-3: destruct W2 as (_ & H & _); [discriminate|]; rewrite H; cbn [life]; rewrite Lf; cbn; rewrite X; reflexivity.
        destruct W1 as (_ & _ & H); [reflexivity|]. rewrite H. cbn [life]. rewrite Lf. destruct fault; cbn; rewrite X; reflexivity.
    + left. auto.
    + left. auto.
    + left. apply Same. rewrite H. reflexivity.
Qed.
Lemma wait_result s p tid o fault s' r : reach s -> running s p -> step s (Wait p tid o fault) = Ok s' (Some r) -> wait_ok s p tid o fault s' r.
Proof.
  intros R A E. destruct (step_ok qpos qpos0 qpos1 s (Wait p tid o fault) (reach_ok s R) A Logic.I) as (s2 & r2 & E2 & _ & r' & -> & W). rewrite E in E2. inversion E2. subst. exact W.
Qed.
Lemma exit_result s p ret sig s' r : reach s -> running s p -> p <> 1 -> step s (Exit p ret sig) = Ok s' r ->
  (forall c, child s p c -> child s' 1 c) /\
  (forall t, t <> p -> liv s' t = liv s t) /\
  (if areap (pr s p) || ign (pr s (ppid (pr s p)))
   then liv s' p = false
   else liv s' p = true /\ stt (pr s' p) = Zomb /\ wst (pr s' p) = exitcode ret sig /\ ppid (pr s' p) = ppid (pr s p)) /\
  (forall t, t <> p -> areap (pr s' t) = true -> areap (pr s t) = true \/ (ppid (pr s t) = p /\ ign (pr s p) = true)).
Proof.
  intros R A N E. destruct (reach_ok s R) as (I & Z & F). destruct (exit_ok qpos qpos0 qpos1 s p ret sig I Z F A N) as (s2 & E2 & _ & _ & _ & H1 & H2 & H3 & H4 & _ & _ & H5).
  cbn [step] in E. rewrite E2 in E. inversion E. subst s2. split; [exact H1|]. split; [exact H4|]. split; [|exact H5].
  destruct (areap (pr s p)), (ign (pr s (ppid (pr s p)))); cbn; auto.
Qed.
Lemma exit_wakes s p ret sig s' r tid o : reach s -> running s p -> p <> 1 -> step s (Exit p ret sig) = Ok s' r ->
  wo (pr s (ppid (pr s p))) = Some (tid, o) -> tid <> 0 -> matches s (ppid (pr s p)) tid p -> stt (pr s' (ppid (pr s p))) <> Sleep.
Proof.
  intros R A N E. destruct (reach_ok s R) as (I & Z & F). destruct (exit_ok qpos qpos0 qpos1 s p ret sig I Z F A N) as (s2 & E2 & _ & _ & _ & _ & _ & _ & _ & H & _).
  cbn [step] in E. rewrite E2 in E. inversion E. subst s2. apply H.
Qed.
Lemma stop_wakes s t sig s' r : reach s -> liv s t = true -> stt (pr s t) <> Zomb -> t <> 1 -> step s (StopSig t sig) = Ok s' r ->
  stopped_now (pr s' t) /\
  forall tid o, wo (pr s (ppid (pr s t))) = Some (tid, o) -> tid <> 0 -> matches s (ppid (pr s t)) tid t -> untraced o = true -> stt (pr s' (ppid (pr s t))) <> Sleep.
Proof.
  intros R L N N1 E. pose proof (reach_ok s R) as O3. destruct (stop_ok qpos s t sig O3 L N) as (s2 & E2 & _ & _ & _ & _ & H & H'). cbn [step] in E. rewrite E2 in E. inversion E. subst s2.
  split; [exact H'|]. intros tid o O. refine (H tid o O _). destruct (i_par _ s (proj1 O3) t L N1) as (_ & X & _). exact X.
Qed.
Lemma cont_wakes s t s' r : reach s -> liv s t = true -> stt (pr s t) <> Zomb -> t <> 1 -> vfs (pr s t) = false -> step s (ContSig t) = Ok s' r ->
  ~ stopped_now (pr s' t) /\
  forall tid o, wo (pr s (ppid (pr s t))) = Some (tid, o) -> tid <> 0 -> matches s (ppid (pr s t)) tid t -> continued o = true -> stt (pr s' (ppid (pr s t))) <> Sleep.
Proof.
  intros R L N N1 V E. pose proof (reach_ok s R) as O3. destruct (cont_ok qpos s t O3 L N) as (s2 & E2 & _ & _ & _ & _ & H). cbn [step] in E. rewrite E2 in E. inversion E. subst s2.
  destruct (H V) as [Hw Hn]. split; [exact Hn|]. intros tid o O. refine (Hw tid o O _). destruct (i_par _ s (proj1 O3) t L N1) as (_ & X & _). exact X.
Qed.
Lemma no_forgotten s p tid o c : reach_z s -> liv s p = true -> wo (pr s p) = Some (tid, o) -> tid <> 0 -> matches s p tid c -> stt (pr s c) <> Zomb.
Proof. intros R L O T M D. destruct (reach_z_ok s R) as (_ & Z & _). exact (Z p tid o c L O T M D). Qed.
Lemma no_forgotten_pid s p tid o : reach s -> liv s p = true -> wo (pr s p) = Some (tid, o) -> 0 < tid -> child s p tid /\ stt (pr s tid) <> Zomb.
Proof.
  intros R L O T. destruct (reach_ok s R) as (I & Z & _). destruct (i_tgt _ s I p tid o L O T) as [A B]. split; [split; assumption|]. intros D.
  apply (Z p tid o tid L O T); [|exact D]. split; [split; assumption|]. split; [reflexivity|]. split; intros; lia.
Qed.

(** Counterexamples *)
Definition runningb (s : st) (p : Z) : bool := liv s p && st_eqb (stt (pr s p)) Run.
Definition allowedb (s : st) (a : action) : bool :=
  match a with
  | Fork p c v => runningb s p && negb (liv s c) && (1 <? c)
  | Exec p => runningb s p
  | Exit p _ _ => runningb s p && negb (p =? 1)
  | Wait p _ _ _ => runningb s p
  | StopSig t _ => liv s t && negb (st_eqb (stt (pr s t)) Zomb) && negb (t =? 1)
  | ContSig t => liv s t && negb (st_eqb (stt (pr s t)) Zomb)
  | SigWake t b => liv s t && negb (st_eqb (stt (pr s t)) Zomb) && b
  | SleepOn p => runningb s p
  | WakeUp p => liv s p && st_eqb (stt (pr s p)) Sleep && match wo (pr s p) with None => true | _ => false end
  | SetPgid t g => liv s t && (0 <? g)
  | SetIgn p _ => runningb s p
  end.
Lemma runningb_ok s p : runningb s p = true -> running s p.
Proof. unfold runningb. rewrite andb_true_iff, st_eqb_eq. intros [A B]. split; assumption. Qed.
Lemma allowedb_ok s a : allowedb s a = true -> allowed s a.
Proof.
  destruct a; cbn; rewrite ?andb_true_iff, ?negb_true_iff, ?st_eqb_neq, ?st_eqb_eq, ?Z.eqb_neq, ?Z.ltb_lt; intros H; try (apply runningb_ok; tauto); intuition auto using runningb_ok; try congruence.
  destruct (wo (pr s p)); [discriminate|reflexivity].
Qed.
Definition nozb (s : st) (a : action) : bool := match a with SetPgid t _ => negb (st_eqb (stt (pr s t)) Zomb) | _ => true end.
Fixpoint runb (s : st) (l : list action) : option st :=
  match l with [] => Some s | a :: l => if allowedb s a then match step s a with Ok s' _ => runb s' l | Fail => None end else None end.
Fixpoint runzb (s : st) (l : list action) : bool :=
  match l with [] => true | a :: l => nozb s a && match step s a with Ok s' _ => runzb s' l | Fail => false end end.
Lemma runb_reach l : forall s s', reach s -> runb s l = Some s' -> reach s'.
Proof.
  induction l as [|a l IH]; intros s s' R E; cbn [runb] in *; [inversion E; subst; exact R|].
  destruct (allowedb s a) eqn:A; [|discriminate]. destruct (step s a) as [s1 r|] eqn:S; [|discriminate].
  apply (IH s1 s'); [eapply r_step; [exact R|apply allowedb_ok, A|exact S]|exact E].
Qed.
Lemma runb_reach_z l : forall s s', reach_z s -> runb s l = Some s' -> runzb s l = true -> reach_z s'.
Proof.
  induction l as [|a l IH]; intros s s' R E H; cbn [runb runzb] in *; [inversion E; subst; exact R|].
  destruct (allowedb s a) eqn:A; [|discriminate]. destruct (step s a) as [s1 r|] eqn:S; [|discriminate]. apply andb_true_iff in H. destruct H as [H1 H2].
  apply (IH s1 s'); [eapply z_step; [exact R|apply allowedb_ok, A| |exact S]|exact E|exact H2]. destruct a; cbn in *; auto. apply st_eqb_neq, negb_true_iff, H1.
Qed.
Lemma run_check l (P : st -> bool) : match runb st_init l with Some s => P s | None => false end = true -> exists s, reach s /\ P s = true.
Proof. destruct (runb st_init l) as [s|] eqn:E; [|discriminate]. intros H. exists s. split; [|exact H]. apply (runb_reach l st_init); [constructor|exact E]. Qed.
Lemma run_check_z l (P : st -> bool) : runzb st_init l && match runb st_init l with Some s => P s | None => false end = true -> exists s, reach_z s /\ P s = true.
Proof. intros H. apply andb_true_iff in H. destruct H as [Hz H]. destruct (runb st_init l) as [s|] eqn:E; [|discriminate]. exists s. split; [|exact H]. apply (runb_reach_z l st_init); [constructor|exact E|exact Hz]. Qed.

Definition woeq (q : proc) (tid : Z) (o : opts) : bool :=
  match wo q with Some (t, Opts a b c) => (t =? tid) && Bool.eqb a (nohang o) && Bool.eqb b (untraced o) && Bool.eqb c (continued o) | None => false end.
Lemma woeq_ok q tid o : woeq q tid o = true -> wo q = Some (tid, o).
Proof.
  unfold woeq. destruct (wo q) as [[t [a b c]]|]; [|discriminate]. rewrite !andb_true_iff, Z.eqb_eq, !Bool.eqb_true_iff. destruct o. cbn. intros (((-> & ->) & ->) & ->). reflexivity.
Qed.

Lemma waitpid0 : exists s p o c, reach_z s /\ liv s p = true /\ stt (pr s p) = Sleep /\ wo (pr s p) = Some (0, o) /\ matches s p 0 c /\ stt (pr s c) = Zomb.
Proof.
  destruct (run_check_z [Fork 1 2 false; Wait 1 0 wnone false; Exit 2 0 0]
    (fun s => liv s 1 && st_eqb (stt (pr s 1)) Sleep && woeq (pr s 1) 0 wnone && liv s 2 && (ppid (pr s 2) =? 1) && (pgid (pr s 2) =? pgid (pr s 1)) && st_eqb (stt (pr s 2)) Zomb)) as (s & R & H); [vm_compute; reflexivity|].
  rewrite !andb_true_iff, !st_eqb_eq, !Z.eqb_eq in H. destruct H as ((((((H1 & H2) & H3) & H4) & H5) & H6) & H7). exists s, 1, wnone, 2. split; [exact R|]. split; [exact H1|]. split; [exact H2|]. split; [apply woeq_ok, H3|]. split; [|exact H7].
  split; [split; assumption|]. split; [intros; lia|]. split; [auto|intros; lia].
Qed.
Lemma zombie_moved : exists s p tid o c, reach s /\ liv s p = true /\ stt (pr s p) = Sleep /\ tid < -1 /\ wo (pr s p) = Some (tid, o) /\ matches s p tid c /\ stt (pr s c) = Zomb.
Proof.
  destruct (run_check [Fork 1 2 false; Fork 1 3 false; SetPgid 3 3; Exit 2 0 0; Wait 1 (-3) wnone false; SetPgid 2 3]
    (fun s => liv s 1 && st_eqb (stt (pr s 1)) Sleep && woeq (pr s 1) (-3) wnone && liv s 2 && (ppid (pr s 2) =? 1) && (pgid (pr s 2) =? 3) && st_eqb (stt (pr s 2)) Zomb)) as (s & R & H); [vm_compute; reflexivity|].
  rewrite !andb_true_iff, !st_eqb_eq, !Z.eqb_eq in H. destruct H as ((((((H1 & H2) & H3) & H4) & H5) & H6) & H7). exists s, 1, (-3), wnone, 2. split; [exact R|]. split; [exact H1|]. split; [exact H2|]. split; [lia|]. split; [apply woeq_ok, H3|]. split; [|exact H7].
  split; [split; assumption|]. split; [intros; lia|]. split; [intros; lia|auto].
Qed.
Definition isret (r : result) (v : Z) : bool := match r with Ok _ (Some (Returns x)) => x =? v | _ => false end.
Lemma isret_ok r v : isret r v = true -> exists s, r = Ok s (Some (Returns v)).
Proof. destruct r as [s [[x|]|]|]; cbn; intros H; try discriminate. apply Z.eqb_eq in H. subst. exists s. reflexivity. Qed.
Lemma second_stop : exists s1 s2 s3 s4, reach s1 /\ child s1 1 2 /\ stt (pr s1 2) = Stop /\
  step s1 (ContSig 2) = Ok s2 None /\ stt (pr s2 2) = Run /\ step s2 (StopSig 2 19) = Ok s3 None /\ stt (pr s3 2) = Stop /\
  step s3 (Wait 1 2 wunt false) = Ok s4 (Some (Returns 0)).
Proof.
  destruct (run_check [Fork 1 2 false; StopSig 2 19; Wait 1 2 wunt false]
    (fun s => liv s 2 && (ppid (pr s 2) =? 1) && st_eqb (stt (pr s 2)) Stop &&
       match step s (ContSig 2) with Ok s2 None => st_eqb (stt (pr s2 2)) Run && match step s2 (StopSig 2 19) with Ok s3 None => st_eqb (stt (pr s3 2)) Stop && isret (step s3 (Wait 1 2 wunt false)) 0 | _ => false end | _ => false end)) as (s & R & H); [vm_compute; reflexivity|].
  rewrite !andb_true_iff, !st_eqb_eq, !Z.eqb_eq in H. destruct H as (((H1 & H2) & H3) & H). destruct (step s (ContSig 2)) as [s2 [|]|] eqn:E2; try discriminate. rewrite andb_true_iff, st_eqb_eq in H. destruct H as [H4 H].
  destruct (step s2 (StopSig 2 19)) as [s3 [|]|] eqn:E3; try discriminate. rewrite andb_true_iff, st_eqb_eq in H. destruct H as [H5 H]. apply isret_ok in H. destruct H as (s4 & H). exists s, s2, s3, s4. unfold child. auto 12.
Qed.
Lemma fork_continued : exists s1 s2 s3, reach s1 /\ running s1 2 /\ step s1 (Fork 2 3 false) = Ok s2 None /\ step s2 (Wait 2 3 wcon false) = Ok s3 (Some (Returns 3)) /\ liv s1 3 = false.
Proof.
  destruct (run_check [Fork 1 2 false; StopSig 2 19; Wait 1 2 wunt false; ContSig 2]
    (fun s => runningb s 2 && negb (liv s 3) && match step s (Fork 2 3 false) with Ok s2 None => isret (step s2 (Wait 2 3 wcon false)) 3 | _ => false end)) as (s & R & H); [vm_compute; reflexivity|].
  rewrite !andb_true_iff, negb_true_iff in H. destruct H as ((H1 & H2) & H). destruct (step s (Fork 2 3 false)) as [s2 [|]|] eqn:E2; try discriminate. apply isret_ok in H. destruct H as (s3 & H). exists s, s2, s3. auto using runningb_ok.
Qed.
Lemma vfork_stopped : exists s s', reach s /\ child s 1 2 /\ vfs (pr s 2) = true /\ step s (Wait 1 2 wunt false) = Ok s' (Some (Returns 2)).
Proof.
  destruct (run_check [Fork 1 2 false; Fork 2 3 true] (fun s => liv s 2 && (ppid (pr s 2) =? 1) && vfs (pr s 2) && isret (step s (Wait 1 2 wunt false)) 2)) as (s & R & H); [vm_compute; reflexivity|].
  rewrite !andb_true_iff, !Z.eqb_eq in H. destruct H as (((H1 & H2) & H3) & H). apply isret_ok in H. destruct H as (s' & H). exists s, s'. unfold child. auto.
Qed.
Lemma resumed_unseen : exists s p o c, reach_z s /\ liv s p = true /\ stt (pr s p) = Sleep /\ wo (pr s p) = Some (c, o) /\ child s p c /\ reportable (pr s c) o.
Proof.
  destruct (run_check_z [Fork 1 2 false; StopSig 2 19; Wait 1 2 wunt false; Wait 1 2 wconb false; SigWake 2 true]
    (fun s => liv s 1 && st_eqb (stt (pr s 1)) Sleep && woeq (pr s 1) 2 wconb && liv s 2 && (ppid (pr s 2) =? 1) && st_eqb (stt (pr s 2)) Run && srep (pr s 2))) as (s & R & H); [vm_compute; reflexivity|].
  rewrite !andb_true_iff, !st_eqb_eq, !Z.eqb_eq in H. destruct H as ((((((H1 & H2) & H3) & H4) & H5) & H6) & H7). exists s, 1, wconb, 2. split; [exact R|]. split; [exact H1|]. split; [exact H2|]. split; [apply woeq_ok, H3|]. split; [split; assumption|].
  right. right. split; [reflexivity|]. split; [congruence|]. split; [|exact H7]. unfold stopped_now. intuition congruence.
Qed.
Lemma status_lost : exists s s', reach s /\ child s 1 2 /\ stt (pr s 2) = Zomb /\ step s (Wait 1 2 wnone true) = Ok s' (Some (Returns EFAULT)) /\ liv s' 2 = false.
Proof.
  destruct (run_check [Fork 1 2 false; Exit 2 7 0] (fun s => liv s 2 && (ppid (pr s 2) =? 1) && st_eqb (stt (pr s 2)) Zomb && match step s (Wait 1 2 wnone true) with Ok s' (Some (Returns r)) => (r =? EFAULT) && negb (liv s' 2) | _ => false end)) as (s & R & H); [vm_compute; reflexivity|].
  rewrite !andb_true_iff, !st_eqb_eq, !Z.eqb_eq in H. destruct H as (((H1 & H2) & H3) & H). destruct (step s (Wait 1 2 wnone true)) as [s' [[r|]|]|] eqn:E; try discriminate. rewrite andb_true_iff, Z.eqb_eq, negb_true_iff in H. destruct H as [-> H]. exists s, s'. unfold child. auto.
Qed.

Lemma status_decodes ret sig : 0 <= ret < 256 -> 0 <= sig < 128 ->
  WEXITSTATUS (exitcode ret sig) = ret /\ WTERMSIG (exitcode ret sig) = sig /\ (WIFEXITED (exitcode ret sig) <-> sig = 0).
Proof.
  intros R S. assert (E : exitcode ret sig = ret * 256 + sig).
  { unfold exitcode. assert (A : Z.land (Z.shiftl ret 8) sig = 0).
    { apply Z.bits_inj'. intros n N. rewrite Z.land_spec, Z.bits_0, Z.shiftl_spec by lia. destruct (Z_lt_le_dec n 8).
      - rewrite Z.testbit_neg_r by lia. reflexivity.
      - rewrite <- (Z.mod_small sig (2 ^ 8)) by lia. rewrite Z.mod_pow2_bits_high by lia. apply andb_false_r. }
    rewrite <- Z.lxor_lor by exact A. rewrite <- Z.add_nocarry_lxor by exact A. rewrite Z.shiftl_mul_pow2 by lia. reflexivity. }
  unfold WIFEXITED, WEXITSTATUS, WTERMSIG. rewrite E. lia.
Qed.
