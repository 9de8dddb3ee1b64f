From Verif Require Import Lib Ramfs_Model Ramfs_Spec Ramfs_Proofs Ramfs_Proofs2.

(** the inode and the handles stand for the specification's state *)
Record rel (M : Z) (fls : Z -> Z) (s : state) (ss : sstate) : Prop := {
  r_wf : wf M (ino s);
  r_file : feq (file_of (ino s)) (sf ss);
  r_tail : forall p, fsize (ino s) <= p -> byte_of (blocks (ino s)) p = 0;
  r_fl : forall h, fl (hs s h) = fls h;
  r_pos : forall h, fpos (hs s h) = spos ss h;
  r_rng : forall h, 0 <= spos ss h < M;
  r_mode : Z.land (mode (ino s)) 128 = 128
}.
Lemma tail_write i i' p0 d : (forall p, fsize i <= p -> byte_of (blocks i) p = 0) -> 0 <= fsize i -> 0 <= fsize i' -> feq (file_of i') (swrite (file_of i) p0 d) -> forall p, fsize i' <= p -> byte_of (blocks i') p = 0.
Proof.
  intros T F F' [A B] p P. specialize (B p ltac:(lia)). unfold swrite, file_of in A, B. cbn [size byte] in *. pose proof (zlen_nonneg d). destruct (zlen d =? 0) eqn:E; cbn [size byte] in *; rewrite B; [apply T; lia|]. destruct ((p0 <=? p) && (p <? p0 + zlen d)) eqn:Q; [lia|apply T; lia].
Qed.
Lemma set_pos_fpos s h pos ss fls : (forall x, fpos (hs s x) = spos ss x) -> (forall x, fl (hs s x) = fls x) -> (forall x, fpos (set_pos s h pos x) = upd (spos ss) h pos x) /\ (forall x, fl (set_pos s h pos x) = fls x).
Proof.
  intros A B. split; intros x; unfold set_pos, upd; destruct (x =? h) eqn:E; cbn [fpos fl]; auto. apply Z.eqb_eq in E. subst x. apply B.
Qed.
Lemma upd_rng g h v M : (forall x, 0 <= g x < M) -> 0 <= v < M -> forall x, 0 <= upd g h v x < M.
Proof. intros G V x. unfold upd. destruct (x =? h); auto. Qed.
Lemma step_ok M dbg CB fls s ss o : 0 < M -> 0 <= CB -> rel M fls s ss -> covered M CB fls ss o ->
  match step M dbg CB s o with
  | None => dbg = true
  | Some (s', r) => exists ss', sstep CB fls ss o r ss' /\ rel M fls s' ss'
  end.
Proof.
  intros HM HC R C. destruct ss as [f g]. destruct R as [W Fe Ta Fl Ps Rg Md]. cbn [sf spos] in *. pose proof (wf_size _ _ W) as Fz. pose proof (wf_file _ _ W) as Fd. destruct Fe as [Fs Fb]. pose proof (conj Fs Fb : feq (file_of (ino s)) f) as Fe. change (fsize (ino s) = size f) in Fs.
  assert (SR : forall pos n, 0 <= pos -> sread (file_of (ino s)) pos n = sread f pos n) by (intros; apply sread_feq; auto).
  assert (Lr : forall pos n, 0 <= pos < M -> 0 <= n -> 0 <= pos + zlen (sread f pos n) < M) by (intros pos n Hp Hn; rewrite sread_len; lia).
  assert (Wr : forall h pos buf k i k' rc pos', 0 <= pos -> start f (fls h) pos + zlen buf < M -> write_nolock M dbg (ino s) (fls h) k buf pos = Some (i, k', rc, pos') ->
    exists n, amount k (start f (fls h) pos) (zlen buf) n /\ rc = wcode (zlen buf) n /\ pos' = start f (fls h) pos + n /\ 0 <= pos' < M /\ wf M i /\ Z.land (mode i) 128 = 128 /\ (forall p, fsize i <= p -> byte_of (blocks i) p = 0) /\ feq (file_of i) (swrite f (start f (fls h) pos) (firstn (Z.to_nat n) buf))).
  { intros h pos buf k i k' rc pos' Hp Hb Hw. pose proof (start_eq f (ino s) (fls h) pos (eq_sym Fs)) as St. rewrite St in *. pose proof (write_ok M dbg (ino s) (fls h) k buf pos W Hp Hb) as X. rewrite Hw in X. cbv zeta in X. destruct X as (n & Am & -> & -> & W' & Md' & _ & _ & Fe'). pose proof (wf_size _ _ W'). pose proof (zlen_nonneg buf).
    assert (0 <= (if has (fls h) O_APPEND then fsize (ino s) else pos)) by (destruct (has (fls h) O_APPEND); lia).
    exists n. split; [exact Am|]. split; [reflexivity|]. split; [reflexivity|]. split; [destruct Am as [->|[X _]]; lia|]. split; [exact W'|]. split; [congruence|]. split; [apply (tail_write (ino s) i _ _ Ta ltac:(lia) ltac:(lia) Fe')|]. eapply feq_trans; [exact Fe'|]. apply swrite_feq. exact Fe. }
  destruct o as [h len|h len off|h buf k|h buf off k|h off wh|oh len|h cbuf iov|h iov k]; cbn [step covered sf spos] in *.
  - pose proof (can_read_ok (hs s h)) as Cr. rewrite Fl in Cr. destruct (can_read (hs s h)); cbn [negb].
    + rewrite read_ok by (auto; rewrite Ps; apply Rg). rewrite Ps, SR by apply Rg. eexists. split; [apply SRead; [exact Cr|reflexivity]|]. destruct (set_pos_fpos s h (g h + zlen (sread f (g h) len)) (SS f g) fls Ps Fl) as [X Y]. constructor; cbn [ino hs sf spos]; auto. apply upd_rng; auto. apply Lr; [apply Rg|lia].
    + eexists. split; [apply SReadBad; exact Cr|]. constructor; auto.
  - pose proof (can_read_ok (hs s h)) as Cr. rewrite Fl in Cr. destruct (can_read (hs s h)); cbn [negb].
    + rewrite read_ok by (auto; lia). rewrite SR by lia. eexists. split; [apply SPread; [exact Cr|reflexivity]|]. constructor; auto.
    + eexists. split; [apply SPreadBad; exact Cr|]. constructor; auto.
  - pose proof (can_write_ok (hs s h)) as Cw. rewrite Fl in Cw. rewrite Fl, Ps. destruct (can_write (hs s h)); cbn [negb].
    + destruct (write_nolock M dbg (ino s) (fls h) k buf (g h)) as [[[[i k'] rc] pos']|] eqn:E.
      * destruct (Wr h (g h) buf k i k' rc pos' (proj1 (Rg h)) C E) as (n & Am & -> & -> & Pr & W' & Md' & Ta' & Fe'). eexists. split; [eapply SWrite; [exact Cw|reflexivity|exact Am]|]. destruct (set_pos_fpos s h (start f (fls h) (g h) + n) (SS f g) fls Ps Fl) as [X Y]. constructor; cbn [ino hs sf spos]; auto. apply upd_rng; auto.
      * rewrite (start_eq f (ino s) (fls h) (g h) (eq_sym Fs)) in C. pose proof (write_ok M dbg (ino s) (fls h) k buf (g h) W (proj1 (Rg h)) C) as X. rewrite E in X. exact X.
    + eexists. split; [apply SWriteBad; exact Cw|]. constructor; auto.
  - pose proof (can_write_ok (hs s h)) as Cw. rewrite Fl in Cw. rewrite Fl. destruct C as [C0 C]. destruct (can_write (hs s h)); cbn [negb].
    + destruct (write_nolock M dbg (ino s) (fls h) k buf off) as [[[[i k'] rc] pos']|] eqn:E.
      * destruct (Wr h off buf k i k' rc pos' C0 C E) as (n & Am & -> & -> & Pr & W' & Md' & Ta' & Fe'). eexists. split; [eapply SPwrite; [exact Cw|reflexivity|exact Am]|]. constructor; cbn [ino hs sf spos]; auto.
      * rewrite (start_eq f (ino s) (fls h) off (eq_sym Fs)) in C. pose proof (write_ok M dbg (ino s) (fls h) k buf off W C0 C) as X. rewrite E in X. exact X.
    + eexists. split; [apply SPwriteBad; exact Cw|]. constructor; auto.
  - destruct C as [Co Ct]. rewrite Ps. pose proof (seek_ok M (ino s) (g h) off wh HM Fz (Rg h) Co) as X. cbv zeta in X. rewrite X. assert (Tg : target (file_of (ino s)) (g h) off wh = target f (g h) off wh) by (unfold target; destruct wh; auto; change (size (file_of (ino s))) with (fsize (ino s)); rewrite Fs; reflexivity). rewrite Tg. destruct ((0 <=? target f (g h) off wh) && (target f (g h) off wh <? M)) eqn:E; [|lia].
    eexists. split; [apply SSeek; lia|]. destruct (set_pos_fpos s h (target f (g h) off wh) (SS f g) fls Ps Fl) as [X1 Y]. constructor; cbn [ino hs sf spos]; auto. apply upd_rng; auto.
  - destruct C as (_ & C1 & C2). pose proof (trunc_ok M (ino s) len W Md C1) as X. destruct (truncate_safe M (ino s) len) as [i rc]. destruct (len <? 0) eqn:E.
    + destruct X as [-> ->]. eexists. split; [apply STruncBad; lia|]. constructor; auto.
    + destruct X as (-> & W' & Md' & Fs' & Y). eexists. split; [apply STruncate; lia|]. constructor; cbn [ino hs sf spos]; auto; [| |congruence].
      * split; [exact Fs'|]. intros p Hp. cbn [byte sresize file_of]. rewrite Y by exact Hp. specialize (Fb p Hp). cbn [file_of byte] in Fb. destruct (len <? fsize (ino s)) eqn:Q; cbn [andb].
        { rewrite Fs in Q. assert (Al : len mod 4096 = 0) by (apply C2; lia). assert (U : up len = len) by (unfold page_up; clear - Al; lia). rewrite U. destruct (len <=? p) eqn:V; destruct (p <? len) eqn:V2; try lia; auto. }
        { destruct (p <? len) eqn:V; [exact Fb|]. apply Ta. lia. }
      * intros p Hp. rewrite Fs' in Hp. rewrite Y by lia. destruct (len <? fsize (ino s)) eqn:Q; cbn [andb]; [|apply Ta; lia]. rewrite Fs in Q. assert (Al : len mod 4096 = 0) by (apply C2; lia). assert (U : up len = len) by (unfold page_up; clear - Al; lia). rewrite U. destruct (len <=? p) eqn:V; [reflexivity|lia].
  - destruct C as (Cr & C1 & C2). rewrite Ps. destruct (readv_ok M CB (ino s) HM HC Fd Fz iov cbuf (g h) 0 [] (Rg h) C1 C2) as (n & new & -> & N & Nn & Fo & Co). rewrite !SR in Nn by apply Rg. rewrite !SR in Co by apply Rg. rewrite Z.add_0_l. cbn [app]. eexists. split; [apply SReadv; auto; try lia; intros A; specialize (Fo A); rewrite SR in Fo by apply Rg; exact Fo|].
    destruct (set_pos_fpos s h (g h + n) (SS f g) fls Ps Fl) as [X Y]. constructor; cbn [ino hs sf spos]; auto. apply upd_rng; auto. rewrite Nn. apply Lr; [apply Rg|lia].
  - destruct C as (Cw & bufs & -> & Ne & Cb & C1 & C2). rewrite Fl, Ps. pose proof (start_eq f (ino s) (fls h) (g h) (eq_sym Fs)) as St. rewrite St in *. pose proof (writev_ok M dbg CB (fls h) HM bufs (ino s) k (g h) 0 W (proj1 (Rg h)) Ne Cb ltac:(lia)) as X. cbv zeta in X. specialize (X C1 C2).
    destruct (writev M dbg CB (ino s) (fls h) k (map Some bufs) (g h) 0) as [[[i rc] pos']|]; [|exact X]. destruct X as (-> & -> & W' & Md' & _ & Fe'). rewrite Z.add_0_l. eexists. split; [eapply SWritev; [exact Cw|reflexivity|reflexivity]|]. rewrite St. pose proof (wf_size _ _ W'). pose proof (zlen_nonneg (concat bufs)).
    assert (0 <= (if has (fls h) O_APPEND then fsize (ino s) else g h)) by (pose proof (Rg h); destruct (has (fls h) O_APPEND); lia).
    destruct (set_pos_fpos s h ((if has (fls h) O_APPEND then fsize (ino s) else g h) + zlen (concat bufs)) (SS f g) fls Ps Fl) as [X1 Y]. constructor; cbn [ino hs sf spos]; auto; [eapply feq_trans; [exact Fe'|]; apply swrite_feq; exact Fe|apply (tail_write (ino s) i _ _ Ta ltac:(lia) ltac:(lia) Fe')|apply upd_rng; auto; lia|congruence].
Qed.
Lemma rel_init M m fls : 0 < M -> Z.land m 128 = 128 -> rel M fls (init_state m fls) sinit.
Proof.
  intros H Hm. constructor; cbn; auto; try lia; [constructor; cbn; auto; try lia; constructor|]. split; [reflexivity|]. intros p _. reflexivity.
Qed.
Lemma history_gen M dbg CB fls : 0 < M -> 0 <= CB -> forall ops s ss s' rs, rel M fls s ss -> run M dbg CB s ops = Some (s', rs) -> covers M CB fls ss ops rs -> exists ss', sruns CB fls ss ops rs ss' /\ rel M fls s' ss'.
Proof.
  intros HM HC. induction ops as [|o ops IH]; intros s ss s' rs R E C; cbn [run] in E; [inversion E; subst; exists ss; split; [constructor|exact R]|].
  destruct (step M dbg CB s o) as [[s1 r]|] eqn:Es; [|discriminate]. destruct (run M dbg CB s1 ops) as [[s2 rs2]|] eqn:Er; [|discriminate]. inversion E; subst. cbn [covers] in C. destruct C as [C1 C2].
  pose proof (step_ok M dbg CB fls s ss o HM HC R C1) as X. rewrite Es in X. destruct X as (ss1 & S1 & R1). destruct (IH s1 ss1 s' rs2 R1 Er (C2 ss1 S1)) as (ss2 & S2 & R2). exists ss2. split; [econstructor; eassumption|exact R2].
Qed.
Lemma history M dbg CB fls m ops s' rs : 0 < M -> 0 <= CB -> Z.land m 128 = 128 -> run M dbg CB (init_state m fls) ops = Some (s', rs) -> covers M CB fls sinit ops rs ->
  exists ss', sruns CB fls sinit ops rs ss' /\ fsize (ino s') = size (sf ss') /\ forall p, 0 <= p -> byte_of (blocks (ino s')) p = byte (sf ss') p.
Proof.
  intros HM HC Hm E C. destruct (history_gen M dbg CB fls HM HC ops _ _ _ _ (rel_init M m fls HM Hm) E C) as (ss & S & R). exists ss. split; [exact S|]. destruct (r_file _ _ _ _ R) as [A B]. split; [exact A|exact B].
Qed.
(** without assertions a call always returns *)
Lemma turn_total M i k buf pos rem tot : write_turn M false i k buf pos rem tot <> TFail.
Proof.
  unfold write_turn. destruct (find (blocks i) (pos - pos mod PAGE)) eqn:F; [discriminate|]. cbn [andb]. destruct k; [discriminate|]. destruct (find_none_insert (blocks i) (pos - pos mod PAGE, zeros) F) as [l ->]. discriminate.
Qed.
Lemma loop_total M buf : forall fuel i k pos rem tot, write_loop M false fuel i k buf pos rem tot <> None.
Proof.
  induction fuel as [|fuel IH]; intros; cbn [write_loop]; [discriminate|]. destruct (negb (rem >? 0)); [discriminate|]. pose proof (turn_total M i k buf pos rem tot). destruct (write_turn M false i k buf pos rem tot); [contradiction|discriminate|apply IH].
Qed.
Lemma write_total M i flags k buf pos : write_nolock M false i flags k buf pos <> None.
Proof.
  unfold write_nolock. cbn [andb]. pose proof (loop_total M buf (length buf) i k (if has flags O_APPEND then fsize i else pos) (zlen buf) 0). destruct (write_loop M false (length buf) i k buf (if has flags O_APPEND then fsize i else pos) (zlen buf) 0) as [[[[? ?] ?] ?]|]; [discriminate|contradiction].
Qed.
Lemma writev_total M CB flags : forall iov i k pos ret, writev M false CB i flags k iov pos ret <> None.
Proof.
  induction iov as [|[b|] iov IH]; intros; cbn [writev]; try discriminate. pose proof (write_total M i flags k (firstn (Z.to_nat CB) b) pos). destruct (write_nolock M false i flags k (firstn (Z.to_nat CB) b) pos) as [[[[? ?] rc] ?]|]; [|contradiction]. destruct (rc <? 0); [discriminate|]. destruct (rc <? zlen b); [discriminate|apply IH].
Qed.
Lemma step_total M CB s o : step M false CB s o <> None.
Proof.
  destruct o as [h len|h len off|h buf k|h buf off k|h off wh|oh len|h cbuf iov|h iov k]; cbn [step].
  - destruct (negb (can_read (hs s h))); [discriminate|]. destruct (read_nolock M (ino s) len (fpos (hs s h))) as [[? ?] ?]. discriminate.
  - destruct (negb (can_read (hs s h))); [discriminate|]. destruct (read_nolock M (ino s) len off) as [[? ?] ?]. discriminate.
  - destruct (negb (can_write (hs s h))); [discriminate|]. pose proof (write_total M (ino s) (fl (hs s h)) k buf (fpos (hs s h))). destruct (write_nolock M false (ino s) (fl (hs s h)) k buf (fpos (hs s h))) as [[[[? ?] ?] ?]|]; [discriminate|contradiction].
  - destruct (negb (can_write (hs s h))); [discriminate|]. pose proof (write_total M (ino s) (fl (hs s h)) k buf off). destruct (write_nolock M false (ino s) (fl (hs s h)) k buf off) as [[[[? ?] ?] ?]|]; [discriminate|contradiction].
  - destruct (seek_nolock M (ino s) (fpos (hs s h)) off wh). discriminate.
  - destruct (truncate_safe M (ino s) len). discriminate.
  - destruct (readv M CB (ino s) cbuf iov (fpos (hs s h)) 0 []) as [[? ?] ?]. discriminate.
  - pose proof (writev_total M CB (fl (hs s h)) iov (ino s) k (fpos (hs s h)) 0). destruct (writev M false CB (ino s) (fl (hs s h)) k iov (fpos (hs s h)) 0) as [[[? ?] ?]|]; [discriminate|contradiction].
Qed.
Lemma run_total M CB ops : forall s, run M false CB s ops <> None.
Proof.
  induction ops as [|o ops IH]; intros s; cbn [run]; [discriminate|]. pose proof (step_total M CB s o). destruct (step M false CB s o) as [[s1 r]|]; [|contradiction]. specialize (IH s1). destruct (run M false CB s1 ops) as [[? ?]|]; [discriminate|contradiction].
Qed.

(** with the assertions on: no panic while there are no holes *)
Lemma turn_dense M i k buf pos rem tot : wf M i -> dense i -> 0 <= pos <= fsize i -> 0 < rem -> pos + rem < M ->
  match write_turn M true i k buf pos rem tot with
  | TFail => False
  | TStop i' => i' = i
  | TNext i' pos' n k' => dense i' /\ pos' <= fsize i'
  end.
Proof.
  intros W D P R B. pose proof (turn_ok M true i k buf pos rem tot W (proj1 P) R B) as H. pose proof (pg_split pos) as (P1 & P2 & P3).
  assert (Pv : pos mod PAGE <> 0 -> find (blocks i) (pg pos) <> None).
  { intros N. specialize (D (pos - 1)). rewrite pg_eq in D. destruct (pg_unique (pg pos) (pos - 1) P3 ltac:(lia)) as [E _]. rewrite E in D. apply D. pose proof (pg_nonneg pos (proj1 P)). lia. }
  destruct (write_turn M true i k buf pos rem tot) as [|i'|i' pos' n k'] eqn:E; [destruct H as (_ & A & C); apply (Pv A C)|apply H|].
  destruct H as (N & -> & W' & _ & Fs & _). split; [|lia]. intros p Pp. rewrite pg_eq. rewrite Fs in Pp.
  assert (Keep : forall q, find (blocks i) q <> None -> find (blocks i') q <> None).
  { intros q Q. unfold write_turn in E. rewrite pg_eq in E. cbv zeta in E. destruct (find (blocks i) (pg pos)) as [c|] eqn:F.
    - inversion E; subst i'. destruct (_ >? _); cbn [blocks]; rewrite find_store; destruct (q =? pg pos); rewrite ?F; auto; discriminate.
    - destruct (true && negb (pos mod PAGE =? 0)); [discriminate|]. destruct k; [discriminate|]. destruct (insert (blocks i) (pg pos, zeros)) as [l|] eqn:I; [|discriminate]. inversion E; subst i'. pose proof (find_insert _ _ _ q I) as X. pose proof (find_insert _ _ _ (pg pos) I) as X2. cbn [fst snd] in X, X2. rewrite Z.eqb_refl in X2.
      destruct (_ >? _); cbn [blocks]; rewrite find_store; destruct (q =? pg pos) eqn:Q2; rewrite ?X2, ?X; auto; discriminate. }
  assert (New : find (blocks i') (pg pos) <> None).
  { unfold write_turn in E. rewrite pg_eq in E. cbv zeta in E. destruct (find (blocks i) (pg pos)) as [c|] eqn:F.
    - inversion E; subst i'. destruct (_ >? _); cbn [blocks]; rewrite find_store, Z.eqb_refl, F; discriminate.
    - destruct (true && negb (pos mod PAGE =? 0)); [discriminate|]. destruct k; [discriminate|]. destruct (insert (blocks i) (pg pos, zeros)) as [l|] eqn:I; [|discriminate]. inversion E; subst i'. pose proof (find_insert _ _ _ (pg pos) I) as X2. cbn [fst snd] in X2. rewrite Z.eqb_refl in X2.
      destruct (_ >? _); cbn [blocks]; rewrite find_store, Z.eqb_refl, X2; discriminate. }
  destruct (Z_lt_dec p (fsize i)); [apply Keep; rewrite <- pg_eq; apply D; lia|]. destruct (pg_unique (pg pos) p P3 ltac:(lia)) as [-> _]. exact New.
Qed.
Lemma loop_dense M buf : forall fuel i k pos rem tot, wf M i -> dense i -> 0 <= pos <= fsize i -> 0 <= rem -> pos + rem < M ->
  match write_loop M true fuel i k buf pos rem tot with None => False | Some (i', _, _, _) => dense i' end.
Proof.
  induction fuel as [|fuel IH]; intros i k pos rem tot W D P R B; cbn [write_loop]; [exact D|]. destruct (negb (rem >? 0)) eqn:E; [exact D|].
  pose proof (turn_dense M i k buf pos rem tot W D P ltac:(lia) B) as H. pose proof (turn_ok M true i k buf pos rem tot W (proj1 P) ltac:(lia) B) as H2. destruct (write_turn M true i k buf pos rem tot) as [|i'|i' pos' n k']; [contradiction|subst; exact D|].
  destruct H as [D' P']. destruct H2 as (N & -> & W' & _). pose proof (pg_split pos) as (P1 & P2 & P3). apply IH; auto; lia.
Qed.
Lemma write_dense M i flags k buf pos : wf M i -> dense i -> 0 <= pos <= fsize i -> (if has flags O_APPEND then fsize i else pos) + zlen buf < M ->
  exists i' k' rc pos', write_nolock M true i flags k buf pos = Some (i', k', rc, pos') /\ dense i'.
Proof.
  intros W D P B. unfold write_nolock. rewrite (wf_file _ _ W). cbn [andb]. pose proof (wf_size _ _ W).
  pose proof (loop_dense M buf (length buf) i k (if has flags O_APPEND then fsize i else pos) (zlen buf) 0 W D ltac:(destruct (has flags O_APPEND); lia) (zlen_nonneg buf) B) as X.
  destruct (write_loop M true (length buf) i k buf (if has flags O_APPEND then fsize i else pos) (zlen buf) 0) as [[[[i' k'] pos'] tot]|]; [|contradiction]. eauto 10.
Qed.
Lemma trunc_dense M i len : wf M i -> dense i -> 0 <= len <= fsize i -> dense (fst (truncate_safe M i len)).
Proof.
  intros W D L. unfold truncate_safe. destruct (Z.land (mode i) 128 =? 128); [|exact D]. destruct (len <? fsize i) eqn:A; [|destruct (len >? fsize i) eqn:B; [lia|exact D]].
  unfold inode_truncate. destruct (len <? 0) eqn:N; cbn [orb]; [exact D|]. destruct (len >=? fsize i) eqn:B; [lia|]. rewrite (wf_file _ _ W). cbn [fst]. intros p P. cbn [fsize blocks] in *. rewrite (drop_last_filter (length (blocks i)) (blocks i) len (le_n _) (wf_asc _ _ W)). rewrite pg_eq, find_filter.
  pose proof (pg_split p). destruct (pg p <? len) eqn:E; [apply D; lia|lia].
Qed.
(** one write, then reads *)
Lemma read_after_write M dbg i k buf pos i' k' pos' : wf M i -> 0 <= pos -> pos + zlen buf < M -> 0 < zlen buf -> write_nolock M dbg i 0 k buf pos = Some (i', k', zlen buf, pos') ->
  read_nolock M i' (zlen buf) pos = (zlen buf, buf, pos + zlen buf) /\ fsize i' = Z.max (fsize i) (pos + zlen buf) /\ forall p, 0 <= p -> ~ pos <= p < pos + zlen buf -> byte_of (blocks i') p = byte_of (blocks i) p.
Proof.
  intros W P B L E. pose proof (write_ok M dbg i 0 k buf pos W P B) as X. rewrite E in X. cbv zeta in X. change (has 0 O_APPEND) with false in X. cbv iota in X. destruct X as (n & Am & Rc & Ep & W' & _ & _ & _ & [Fs Fb]).
  assert (n = zlen buf) by (unfold wcode in Rc; destruct ((zlen buf >? 0) && (n =? 0)) eqn:Q; destruct Am as [|[? _]]; lia). subst n. assert (Fn : firstn (Z.to_nat (zlen buf)) buf = buf) by (apply firstn_all2; unfold zlen; lia). rewrite Fn in *.
  unfold swrite in Fs, Fb. destruct (zlen buf =? 0) eqn:Z0; [lia|]. cbn [size byte file_of] in Fs, Fb. pose proof (wf_size _ _ W').
  rewrite (read_ok M i' (zlen buf) pos (wf_file _ _ W') (wf_size _ _ W')) by lia.
  assert (Sr : sread (file_of i') pos (zlen buf) = buf).
  { unfold sread. change (size (file_of i')) with (fsize i'). replace (Z.min (zlen buf) (fsize i' - pos)) with (zlen buf) by lia. unfold content. cbn [byte file_of]. apply (nth_ext _ _ 0 0); [rewrite map_length, seq_length; unfold zlen; lia|]. intros j J. rewrite map_length, seq_length in J.
    rewrite (nth_indep _ 0 (byte_of (blocks i') (pos + Z.of_nat 0))) by (rewrite map_length, seq_length; exact J). rewrite (map_nth (fun k0 => byte_of (blocks i') (pos + Z.of_nat k0))). rewrite seq_nth by exact J. rewrite Fb by lia. destruct ((pos <=? pos + Z.of_nat (0 + j)) && (pos + Z.of_nat (0 + j) <? pos + zlen buf)) eqn:Q; [|unfold zlen in *; lia].
    unfold znth. f_equal. lia. }
  rewrite Sr. split; [reflexivity|]. split; [exact Fs|]. intros p Pp Np. rewrite Fb by exact Pp. destruct ((pos <=? p) && (p <? pos + zlen buf)) eqn:Q; [lia|reflexivity].
Qed.
Lemma block_count M dbg i flags k buf pos i' k' rc pos' : wf M i -> 0 <= pos -> (if has flags O_APPEND then fsize i else pos) + zlen buf < M -> write_nolock M dbg i flags k buf pos = Some (i', k', rc, pos') -> bcount i = zlen (blocks i) -> bcount i' = zlen (blocks i').
Proof.
  intros W P B E C. pose proof (write_ok M dbg i flags k buf pos W P B) as X. rewrite E in X. cbv zeta in X. destruct X as (n & _ & _ & _ & _ & _ & _ & Bc & _). lia.
Qed.
(** truncation and extension *)
Lemma trunc_extend M i len len2 : wf M i -> Z.land (mode i) 128 = 128 -> 0 <= len < fsize i -> len <= len2 < M ->
  let i1 := fst (truncate_safe M i len) in let i2 := fst (truncate_safe M i1 len2) in
  snd (truncate_safe M i len) = 0 /\ snd (truncate_safe M i1 len2) = 0 /\ fsize i1 = len /\ fsize i2 = len2 /\
  forall p, 0 <= p -> byte_of (blocks i2) p = if p <? page_up len then byte_of (blocks i) p else 0.
Proof.
  intros W Md L L2. cbv zeta. pose proof (trunc_ok M i len W Md ltac:(destruct W; lia)) as A. destruct (truncate_safe M i len) as [i1 rc1]. cbn [fst snd]. destruct (len <? 0) eqn:N; [lia|]. destruct A as (-> & W1 & Md1 & Fs1 & B1).
  pose proof (trunc_ok M i1 len2 W1 ltac:(congruence) ltac:(lia)) as A. destruct (truncate_safe M i1 len2) as [i2 rc2]. cbn [fst snd]. destruct (len2 <? 0) eqn:N2; [lia|]. destruct A as (-> & W2 & Md2 & Fs2 & B2).
  repeat (split; [auto|]). intros p P. rewrite B2, B1 by exact P. rewrite Fs1. destruct (len2 <? len) eqn:Q; [lia|]. destruct (len <? fsize i) eqn:Q1; [|lia]. cbn [andb]. destruct (page_up len <=? p) eqn:Q2; destruct (p <? page_up len) eqn:Q3; try lia; reflexivity.
Qed.
Lemma past_eof_exact M len u va : 0 <= len -> len + 4095 < 2 * M -> 0 <= um_off u -> um_off u mod 4096 = 0 -> 0 <= um_len u -> um_len u mod 4096 = 0 ->
  In va (past_eof M len u) <-> um_vaddr u <= va < um_vaddr u + um_len u /\ (va - um_vaddr u) mod 4096 = 0 /\ page_up len <= um_off u + (va - um_vaddr u).
Proof.
  intros L Lm O Oa U Ua. unfold past_eof, round_up. rewrite Z.mod_small by (unfold PAGE; lia). change (PAGE - 1) with 4095. change PAGE with 4096. fold (page_up len). assert (Al : page_up len mod 4096 = 0) by (unfold page_up; apply Z.mod_mul; lia). set (r := page_up len) in *. clearbody r.
  destruct (um_off u + um_len u <=? r) eqn:E; [cbn [In]; split; [tauto|lia]|]. set (v := if r >=? um_off u then r - um_off u else 0). assert (V : 0 <= v /\ v mod 4096 = 0 /\ (um_off u <= r -> v = r - um_off u) /\ (r < um_off u -> v = 0) /\ v <= um_len u) by (unfold v; destruct (r >=? um_off u) eqn:Q; lia). clearbody v. destruct V as (V1 & V2 & V3 & V4 & V5).
  rewrite in_map_iff. split.
  - intros (k & <- & K). apply in_seq in K. assert (Ku : Z.of_nat k < (um_len u - v + 4096 - 1) / 4096) by lia. clear K. assert (4096 * Z.of_nat k < um_len u - v) by lia. split; [lia|]. split; [lia|]. destruct (Z_le_dec (um_off u) r); lia.
  - intros (A & B & C). exists (Z.to_nat ((va - um_vaddr u - v) / 4096)). assert (D : v <= va - um_vaddr u) by (destruct (Z_le_dec (um_off u) r); lia). split; [lia|]. apply in_seq. split; [lia|]. assert ((va - um_vaddr u - v) / 4096 < (um_len u - v + 4096 - 1) / 4096) by lia. lia.
Qed.
(** page faults *)
Lemma fault_ok M dbg i k u va rw : wf M i -> 0 <= um_off u -> um_vaddr u <= va -> (k > 0)%nat -> let o := um_off u + (va - um_vaddr u) in find (blocks i) (o - o mod PAGE) = None ->
  exists i' m, fault dbg i k u va rw = Some (i', m) /\ feq (file_of i') (file_of i) /\ (fsize i <= o -> m = None) /\ (o < fsize i -> m = Some (if rw then FBlock (o - o mod PAGE) else FZero, true)) /\
    (o < fsize i -> rw = true -> find (blocks i') (o - o mod PAGE) = Some zeros) /\ wf M i'.
Proof.
  intros W U V K o F. unfold fault. fold o. destruct (o >=? fsize i) eqn:E; [exists i, None; split; [reflexivity|]; split; [apply feq_refl|]; split; [auto|]; split; [lia|]; split; [lia|exact W]|].
  destruct rw; [|exists i, (Some (FZero, true)); split; [reflexivity|]; split; [apply feq_refl|]; split; [lia|]; split; [auto|]; split; [discriminate|exact W]].
  destruct k as [|k]; [lia|]. destruct (find_none_insert (blocks i) (o - o mod PAGE, zeros) F) as [l I]. rewrite I. eexists _, _. split; [reflexivity|]. split; [split; [reflexivity|]; intros p P; cbn [file_of byte blocks]; apply (byte_insert _ _ _ p F I)|]. split; [lia|]. split; [auto|].
  split; [intros _ _; cbn [blocks]; rewrite (find_insert _ _ _ _ I); cbn [fst snd]; rewrite Z.eqb_refl; reflexivity|]. destruct W as [W1 W2 W3 W4]. rewrite pg_eq in I. pose proof (pg_split o). pose proof (pg_nonneg o ltac:(unfold o; lia)). constructor; cbn [isdir fsize blocks]; auto; [apply (insert_asc _ _ _ I W3)|apply (insert_forall (fun x => 0 <= x < M /\ x mod PAGE = 0) _ _ _ I); [cbn [fst]; split; [lia|tauto]|exact W4]].
Qed.

(** where the code does not keep the property *)
Lemma hole_panic : run (2 ^ 31) true 258048 fresh [Seek 3 5000 SeekSet; Write 3 [7] 10%nat] = None.
Proof. vm_compute. reflexivity. Qed.
Lemma overflow dbg : match run (2 ^ 31) dbg 258048 fresh [Seek 3 (2 ^ 31 - 4096) SeekSet; Write 3 (repeat 7 (Z.to_nat 4096)) 10%nat] with
  | Some (s, rs) => rs = [Ret (2 ^ 31 - 4096) []; Ret 4096 []] /\ fsize (ino s) = 0 /\ fpos (hs s 3) = - 2 ^ 31
  | None => False end.
Proof. destruct dbg; vm_compute; auto. Qed.
Lemma failed_seek dbg : exists s, run (2 ^ 31) dbg 258048 fresh [Seek 3 10 SeekSet; Seek 3 (-1) SeekSet] = Some (s, [Ret 10 []; Ret (-22) []]) /\ fpos (hs s 3) = 0.
Proof. destruct dbg; eexists; split; vm_compute; reflexivity. Qed.
Lemma readv_stale dbg : exists s, run (2 ^ 31) dbg 258048 fresh [Write 3 [7; 8] 10%nat; Seek 3 0 SeekSet; Readv 3 [91; 92; 93; 94] [4]] = Some (s, [Ret 2 []; Ret 0 []; Ret 2 [[7; 8; 93; 94]]]).
Proof. destruct dbg; eexists; vm_compute; reflexivity. Qed.
Lemma writev_readonly dbg : ~ writable (flags2 1) /\ exists s, run (2 ^ 31) dbg 258048 fresh [Writev 1 [Some [7; 8]] 10%nat; Pread 3 5 0] = Some (s, [Ret 2 []; Ret 2 [[7; 8]]]).
Proof. split; [unfold writable; cbn; lia|]. destruct dbg; eexists; vm_compute; reflexivity. Qed.
Lemma readv_writeonly dbg : ~ readable (flags2 2) /\ exists s, run (2 ^ 31) dbg 258048 fresh [Write 3 [7; 8] 10%nat; Readv 2 [] [2]] = Some (s, [Ret 2 []; Ret 2 [[7; 8]]]).
Proof. split; [unfold readable; cbn; lia|]. destruct dbg; eexists; vm_compute; reflexivity. Qed.
Lemma writev_error dbg : exists s, run (2 ^ 31) dbg 258048 fresh [Writev 3 [Some [7; 8]; None] 10%nat; Pread 3 5 0] = Some (s, [Ret (-14) []; Ret 2 [[7; 8]]]).
Proof. destruct dbg; eexists; vm_compute; reflexivity. Qed.
Lemma ftruncate_readonly dbg : ~ writable (flags2 1) /\ exists s, run (2 ^ 31) dbg 258048 fresh [Write 3 [7; 8] 10%nat; Truncate (Some 1) 0; Pread 3 5 0] = Some (s, [Ret 2 []; Ret 0 []; Ret 0 [[]]]).
Proof. split; [unfold writable; cbn; lia|]. destruct dbg; eexists; vm_compute; reflexivity. Qed.
Lemma tail_back dbg : exists s, run (2 ^ 31) dbg 258048 fresh [Write 3 [7; 8; 9] 10%nat; Truncate None 1; Truncate None 3; Pread 3 5 0] = Some (s, [Ret 3 []; Ret 0 []; Ret 0 []; Ret 3 [[7; 8; 9]]]).
Proof. destruct dbg; eexists; vm_compute; reflexivity. Qed.
Lemma count_wrong dbg : exists s rs, run (2 ^ 31) dbg 258048 fresh [Write 3 [7; 8; 9] 10%nat; Truncate None 1] = Some (s, rs) /\ zlen (blocks (ino s)) = 1 /\ bcount (ino s) = 4096.
Proof. destruct dbg; eexists _, _; split; [vm_compute; reflexivity|vm_compute; auto|vm_compute; reflexivity|vm_compute; auto]. Qed.
Lemma dir_entries : truncate_safe (2 ^ 31) (Inode true 511 2 [] 0) 100 = (Inode true 511 100 [] 0, 0).
Proof. reflexivity. Qed.
Lemma zero_page dbg u va i k : va = um_vaddr u -> um_off u < fsize i -> fault dbg i k u va false = Some (i, Some (FZero, true)).
Proof. intros -> H. unfold fault. rewrite Z.sub_diag, Z.add_0_r. destruct (um_off u >=? fsize i) eqn:E; [lia|reflexivity]. Qed.
Lemma lost_block : exists i, wf (2 ^ 31) i /\ fault true i 5 (Umap 65536 4096 0) 65536 true = None /\ exists i', fault false i 5 (Umap 65536 4096 0) 65536 true = Some (i', Some (FLost, true)).
Proof.
  exists (Inode false 438 3 [(0, fun x => x + 7)] 1). split; [constructor; [reflexivity|cbn; lia|repeat constructor|repeat constructor; cbn; lia]|]. split; [reflexivity|]. eexists. reflexivity.
Qed.
