From Verif Require Import Lib Ramfs_Model Ramfs_Spec.

Definition pg (p : Z) : Z := p - p mod PAGE.
Lemma pg_eq p : p - p mod PAGE = pg p.
Proof. reflexivity. Qed.
Lemma pg_split p : p = pg p + p mod PAGE /\ 0 <= p mod PAGE < PAGE /\ pg p mod PAGE = 0.
Proof. unfold pg, PAGE. lia. Qed.
Lemma pg_nonneg p : 0 <= p -> 0 <= pg p.
Proof. unfold pg, PAGE. lia. Qed.
Lemma pg_unique o p : o mod PAGE = 0 -> o <= p < o + PAGE -> pg p = o /\ p mod PAGE = p - o.
Proof. unfold pg, PAGE. lia. Qed.
Lemma sw_small M x : - M <= x < M -> sw M x = x.
Proof. intros H. unfold sw. rewrite Z.mod_small by lia. lia. Qed.

(** blocks *)
Lemma find_store l q c p : find (store l q c) p = if p =? q then (match find l q with Some _ => Some c | None => None end) else find l p.
Proof.
  induction l as [|[o c0] l IH]; cbn [store find]; [destruct (p =? q); reflexivity|]. destruct (o =? q) eqn:E.
  - cbn [find]. apply Z.eqb_eq in E. subst q. rewrite (Z.eqb_sym o p). destruct (p =? o); reflexivity.
  - cbn [find]. destruct (o =? p) eqn:E2; [|exact IH]. destruct (p =? q) eqn:E3; [lia|reflexivity].
Qed.
Lemma fst_store l q c : map fst (store l q c) = map fst l.
Proof. induction l as [|[o c0] l IH]; cbn [store map]; [reflexivity|]. destruct (o =? q); cbn [map fst]; [reflexivity|rewrite IH; reflexivity]. Qed.
Lemma store_fst_forall (P : Z -> Prop) l q c : Forall (fun b : block => P (fst b)) l -> Forall (fun b : block => P (fst b)) (store l q c).
Proof. intros H. rewrite <- (Forall_map (@fst Z (Z -> Z)) P), fst_store. apply Forall_map. exact H. Qed.
Lemma find_none_insert l b : find l (fst b) = None -> exists l', insert l b = Some l'.
Proof.
  induction l as [|[o c] l IH]; cbn [find insert]; [eauto|]. destruct (o =? fst b) eqn:E; [discriminate|]. rewrite Z.eqb_sym, E. intros H. destruct (fst b <? o); [eauto|]. destruct (IH H) as [l' ->]. eauto.
Qed.
Lemma find_insert l b l' p : insert l b = Some l' -> find l' p = if p =? fst b then Some (snd b) else find l p.
Proof.
  revert l'. induction l as [|[o c] l IH]; cbn [insert]; intros l' H.
  - inversion H; subst. destruct b as [q d]. cbn [find fst snd]. rewrite Z.eqb_sym. destruct (p =? q); reflexivity.
  - destruct (fst b =? o) eqn:E; [discriminate|]. destruct (fst b <? o) eqn:L.
    + inversion H; subst. destruct b as [q d]. cbn [find fst snd] in *. rewrite (Z.eqb_sym q p). destruct (p =? q); reflexivity.
    + destruct (insert l b) as [r|] eqn:I; [|discriminate]. inversion H; subst. cbn [find]. rewrite (IH r eq_refl). destruct (o =? p) eqn:E2; [|reflexivity]. destruct (p =? fst b) eqn:E3; [lia|reflexivity].
Qed.
Lemma insert_forall (P : Z -> Prop) l b l' : insert l b = Some l' -> P (fst b) -> Forall (fun b : block => P (fst b)) l -> Forall (fun b : block => P (fst b)) l'.
Proof.
  revert l'. induction l as [|[o c] l IH]; cbn [insert]; intros l' H Pb F; [inversion H; subst; auto|]. destruct (fst b =? o); [discriminate|]. destruct (fst b <? o); [inversion H; subst; auto|].
  destruct (insert l b) as [r|]; [|discriminate]. inversion H; subst. inversion F; subst. constructor; auto.
Qed.
Lemma insert_asc l b l' : insert l b = Some l' -> StronglySorted Z.lt (map fst l) -> StronglySorted Z.lt (map fst l').
Proof.
  revert l'. induction l as [|[o c] l IH]; cbn [insert]; intros l' H S; [inversion H; subst; repeat constructor|]. destruct (fst b =? o) eqn:E; [discriminate|]. destruct (fst b <? o) eqn:L.
  - inversion H; subst. cbn [map] in *. inversion S as [|x y S1 F]; subst. constructor; [exact S|]. constructor; [cbn [fst]; lia|]. eapply Forall_impl; [|exact F]. cbn [fst]. intros a Ha. lia.
  - destruct (insert l b) as [r|] eqn:I; [|discriminate]. inversion H; subst. cbn [map fst] in *. inversion S as [|x y S1 F]; subst. constructor; [apply IH; auto|].
    apply Forall_map. apply (insert_forall (fun z => o < z) l b r I); [cbn; lia|]. rewrite Forall_map in F. exact F.
Qed.
Lemma asc_last (l : list block) o c : StronglySorted Z.lt (map fst (l ++ [(o, c)])) -> StronglySorted Z.lt (map fst l) /\ Forall (fun b => fst b < o) l.
Proof.
  induction l as [|[q d] l IH]; cbn [app map]; intros S; [split; constructor|]. inversion S as [|x y S1 F]; subst. destruct (IH S1) as [A B]. rewrite map_app in F. apply Forall_app in F. destruct F as [F1 F2]. cbn in F2. inversion F2; subst. split; constructor; auto.
Qed.
Lemma drop_last_filter fuel : forall l len, (length l <= fuel)%nat -> StronglySorted Z.lt (map fst l) -> drop_last fuel l len = filter (fun b => fst b <? len) l.
Proof.
  induction fuel as [|fuel IH]; intros l len L S; [destruct l; [reflexivity|cbn in L; lia]|]. cbn [drop_last]. destruct l as [|b l _] using rev_ind; [reflexivity|]. destruct b as [o c]. rewrite rev_app_distr. cbn [rev app]. destruct (asc_last _ _ _ S) as [A B].
  rewrite app_length in L. cbn in L. rewrite filter_app. cbn [filter fst]. destruct (o <? len) eqn:E.
  - f_equal. symmetry. clear - B E. induction l as [|[q d] l IH]; [reflexivity|]. inversion B; subst. cbn [filter fst] in *. replace (q <? len) with true by lia. rewrite IH by assumption. reflexivity.
  - rewrite rev_involutive, app_nil_r. apply IH; [lia|exact A].
Qed.
Lemma find_filter l len p : find (filter (fun b : block => fst b <? len) l) p = if p <? len then find l p else None.
Proof.
  induction l as [|[o c] l IH]; cbn [filter find fst]; [destruct (p <? len); reflexivity|]. destruct (o <? len) eqn:E; cbn [find]; rewrite ?IH; destruct (o =? p) eqn:E2; destruct (p <? len) eqn:E3; try reflexivity; lia.
Qed.
Lemma byte_store l q c p : find l q <> None -> q mod PAGE = 0 -> byte_of (store l q c) p = if (q <=? p) && (p <? q + PAGE) then c (p - q) else byte_of l p.
Proof.
  intros F Q. unfold byte_of. rewrite pg_eq, find_store. destruct ((q <=? p) && (p <? q + PAGE)) eqn:B.
  - destruct (pg_unique q p Q ltac:(lia)) as [-> ->]. rewrite Z.eqb_refl. destruct (find l q); [reflexivity|contradiction].
  - destruct (pg p =? q) eqn:E; [|reflexivity]. pose proof (pg_split p). lia.
Qed.
Lemma byte_insert l q l' p : find l q = None -> insert l (q, zeros) = Some l' -> byte_of l' p = byte_of l p.
Proof.
  intros F I. unfold byte_of. rewrite (find_insert l (q, zeros) l' (p - p mod PAGE) I). cbn [fst snd]. destruct (p - p mod PAGE =? q) eqn:E; [|reflexivity]. apply Z.eqb_eq in E. rewrite E, F. reflexivity.
Qed.

(** reading *)
Lemma bytes_len c off n : 0 <= n -> zlen (bytes c off n) = n.
Proof. intros H. unfold bytes, zlen. rewrite map_length, seq_length. lia. Qed.
Lemma map_seq_ext {A} (f g : nat -> A) n m k : (forall j, (j < k)%nat -> f (n + j)%nat = g (m + j)%nat) -> map f (seq n k) = map g (seq m k).
Proof.
  revert n m. induction k as [|k IH]; intros n m H; [reflexivity|]. cbn [seq map]. f_equal; [specialize (H O ltac:(lia)); rewrite !Nat.add_0_r in H; exact H|]. apply IH. intros j J. specialize (H (S j) ltac:(lia)). rewrite !Nat.add_succ_r in H. exact H.
Qed.
Lemma content_split f pos a b : 0 <= a -> 0 <= b -> content f pos (a + b) = content f pos a ++ content f (pos + a) b.
Proof.
  intros A B. unfold content. rewrite Z2Nat.inj_add by lia. rewrite seq_app, map_app. f_equal. apply map_seq_ext. intros j J. f_equal. lia.
Qed.
Lemma content_len f pos n : zlen (content f pos n) = Z.max 0 n.
Proof. unfold content, zlen. rewrite map_length, seq_length. lia. Qed.
Lemma content_le f pos n : n <= 0 -> content f pos n = [].
Proof. intros H. unfold content. replace (Z.to_nat n) with O by lia. reflexivity. Qed.
Lemma page_content i page_off n pos : page_off = pos mod PAGE -> 0 <= n <= PAGE - page_off ->
  match find (blocks i) (pos - pos mod PAGE) with Some c => bytes c page_off n | None => bytes zeros 0 n end = content (file_of i) pos n.
Proof.
  intros -> N. pose proof (pg_split pos) as (P1 & P2 & P3). unfold content, bytes, file_of. cbn [byte].
  assert (X : forall j, (j < Z.to_nat n)%nat -> pg (pos + Z.of_nat j) = pg pos /\ (pos + Z.of_nat j) mod PAGE = pos mod PAGE + Z.of_nat j).
  { intros j J. destruct (pg_unique (pg pos) (pos + Z.of_nat j) P3 ltac:(lia)) as [-> ->]. lia. }
  rewrite pg_eq. destruct (find (blocks i) (pg pos)) as [c|] eqn:F; apply map_seq_ext; intros j J; destruct (X j J) as [X1 X2]; unfold byte_of; rewrite Nat.add_0_l, pg_eq, X1, X2, F; reflexivity.
Qed.
Lemma read_loop_ok M i : 0 <= fsize i < M -> forall fuel pos rem out, 0 <= pos < M -> (Z.to_nat rem <= fuel)%nat ->
  read_loop M fuel i pos rem out = (out ++ sread (file_of i) pos rem, pos + zlen (sread (file_of i) pos rem)).
Proof.
  intros Hs. induction fuel as [|fuel IH]; intros pos rem out P F; unfold sread in *; change (size (file_of i)) with (fsize i) in *; rewrite !content_len in *.
  - cbn [read_loop]. rewrite content_le by lia. rewrite app_nil_r. f_equal. lia.
  - cbn [read_loop]. destruct (negb (rem >? 0)) eqn:R; [rewrite content_le by lia; rewrite app_nil_r; f_equal; lia|].
    destruct (pos >=? fsize i) eqn:E; [rewrite content_le by lia; rewrite app_nil_r; f_equal; lia|]. rewrite (sw_small M (fsize i - pos)) by lia.
    pose proof (pg_split pos) as (P1 & P2 & P3). set (t := Z.min (Z.min (PAGE - pos mod PAGE) rem) (fsize i - pos)). assert (T : 0 < t /\ t <= PAGE - pos mod PAGE /\ t <= rem /\ t <= fsize i - pos) by (unfold t; lia).
    destruct (t <=? 0) eqn:T0; [lia|]. rewrite (sw_small M (pos + t)) by lia. rewrite (page_content i (pos mod PAGE) t pos eq_refl ltac:(lia)). rewrite IH by lia.
    rewrite !content_len. rewrite <- app_assoc. clear T0. clearbody t. f_equal; [|lia]. f_equal. replace (Z.min rem (fsize i - pos)) with (t + Z.min (rem - t) (fsize i - (pos + t))) by lia.
    destruct (Z_le_dec 0 (Z.min (rem - t) (fsize i - (pos + t)))); [|lia]. rewrite content_split by lia. reflexivity.
Qed.
Lemma read_ok M i len pos : isdir i = false -> 0 <= fsize i < M -> 0 <= pos < M -> 0 <= len < M ->
  read_nolock M i len pos = (zlen (sread (file_of i) pos len), sread (file_of i) pos len, pos + zlen (sread (file_of i) pos len)).
Proof.
  intros D S P L. unfold read_nolock. rewrite D, (sw_small M len) by lia. rewrite (read_loop_ok M i S) by lia. reflexivity.
Qed.

(** writing *)
Lemma insert_length l b l' : insert l b = Some l' -> zlen l' = zlen l + 1.
Proof.
  revert l'. induction l as [|[o c] l IH]; cbn [insert]; intros l' H; [inversion H; reflexivity|]. destruct (fst b =? o); [discriminate|]. destruct (fst b <? o); [inversion H; unfold zlen; cbn [length]; lia|].
  destruct (insert l b) as [r|]; [|discriminate]. inversion H; subst. specialize (IH r eq_refl). unfold zlen in *. cbn [length] in *. lia.
Qed.
Lemma store_length l q c : zlen (store l q c) = zlen l.
Proof. unfold zlen. f_equal. induction l as [|[o c0] l IH]; cbn [store length]; [reflexivity|]. destruct (o =? q); cbn [length]; [reflexivity|rewrite IH; reflexivity]. Qed.
Lemma turn_ok M dbg i k buf pos rem tot : wf M i -> 0 <= pos -> 0 < rem -> pos + rem < M ->
  match write_turn M dbg i k buf pos rem tot with
  | TFail => dbg = true /\ pos mod PAGE <> 0 /\ find (blocks i) (pg pos) = None
  | TStop i' => i' = i /\ k = O
  | TNext i' pos' n k' => n = Z.min (PAGE - pos mod PAGE) rem /\ pos' = pos + n /\ wf M i' /\ mode i' = mode i /\ fsize i' = Z.max (fsize i) (pos + n) /\
      (k' <= k <= S k')%nat /\ bcount i' - zlen (blocks i') = bcount i - zlen (blocks i) /\
      forall p, byte_of (blocks i') p = if (pos <=? p) && (p <? pos + n) then znth 0 buf (tot + (p - pos)) else byte_of (blocks i) p
  end.
Proof.
  intros [W1 W2 W3 W4] P R B. pose proof (pg_split pos) as (P1 & P2 & P3). unfold write_turn. rewrite pg_eq. set (t := Z.min (PAGE - pos mod PAGE) rem). assert (T : 0 < t /\ t <= rem /\ t <= PAGE - pos mod PAGE) by (unfold t; lia).
  assert (G : forall l c, find l (pg pos) = Some c -> StronglySorted Z.lt (map fst l) -> Forall (fun b => 0 <= fst b < M /\ fst b mod PAGE = 0) l ->
     let l' := store l (pg pos) (memcpy c (pos mod PAGE) buf tot t) in
     StronglySorted Z.lt (map fst l') /\ Forall (fun b => 0 <= fst b < M /\ fst b mod PAGE = 0) l' /\
     forall p, byte_of l' p = if (pos <=? p) && (p <? pos + t) then znth 0 buf (tot + (p - pos)) else byte_of l p).
  { intros l c F S A. cbv zeta. split; [rewrite fst_store; exact S|]. split; [apply (store_fst_forall (fun x => 0 <= x < M /\ x mod PAGE = 0)); exact A|]. intros p. rewrite byte_store by (rewrite ?F; [discriminate|exact P3] || exact P3 || (rewrite F; discriminate)).
    unfold memcpy. destruct ((pg pos <=? p) && (p <? pg pos + PAGE)) eqn:I.
    - destruct ((pos <=? p) && (p <? pos + t)) eqn:J; destruct ((pos mod PAGE <=? p - pg pos) && (p - pg pos <? pos mod PAGE + t)) eqn:K; try lia.
      + f_equal. lia.
      + unfold byte_of. rewrite pg_eq. destruct (pg_unique (pg pos) p P3 ltac:(lia)) as [-> ->]. rewrite F. reflexivity.
    - destruct ((pos <=? p) && (p <? pos + t)) eqn:J; [lia|reflexivity]. }
  assert (E : sw M (pos + t) = pos + t) by (apply sw_small; lia). clearbody t.
  destruct (find (blocks i) (pg pos)) as [c|] eqn:F.
  - destruct (G _ _ F W3 W4) as (S & A & Y). cbn [isdir mode fsize blocks bcount]. rewrite E. destruct (pos + t >? fsize i) eqn:Q; cbn [isdir mode fsize blocks bcount]; (split; [reflexivity|]); (split; [reflexivity|]); (split; [constructor; cbn [isdir fsize blocks]; auto; lia|]); (split; [reflexivity|]); (split; [lia|]); (split; [lia|]); (split; [rewrite store_length; lia|exact Y]).
  - destruct (dbg && negb (pos mod PAGE =? 0)) eqn:D; [split; [destruct dbg; [reflexivity|discriminate]|split; [lia|reflexivity]]|].
    destruct k as [|k]; [auto|]. destruct (insert (blocks i) (pg pos, zeros)) as [l|] eqn:I; [|exfalso; destruct (find_none_insert (blocks i) (pg pos, zeros) F) as [l' L]; congruence].
    pose proof (find_insert _ _ _ (pg pos) I) as FI. cbn [fst snd] in FI. rewrite Z.eqb_refl in FI.
    destruct (G l zeros FI (insert_asc _ _ _ I W3)) as (S & A & Y); [apply (insert_forall (fun x => 0 <= x < M /\ x mod PAGE = 0) _ _ _ I); [cbn [fst]; pose proof (pg_nonneg pos P); split; [lia|exact P3]|exact W4]|].
    assert (Y' : forall p, byte_of (store l (pg pos) (memcpy zeros (pos mod PAGE) buf tot t)) p = (if (pos <=? p) && (p <? pos + t) then znth 0 buf (tot + (p - pos)) else byte_of (blocks i) p)) by (intros p; rewrite Y, (byte_insert _ _ _ p F I); reflexivity).
    pose proof (insert_length _ _ _ I). cbn [isdir mode fsize blocks bcount]. rewrite E. destruct (pos + t >? fsize i) eqn:Q; cbn [isdir mode fsize blocks bcount]; (split; [reflexivity|]); (split; [reflexivity|]); (split; [constructor; cbn [isdir fsize blocks]; auto; lia|]); (split; [reflexivity|]); (split; [lia|]); (split; [lia|]); (split; [rewrite store_length; lia|exact Y']).
Qed.
Lemma pages_next pos rem n : 0 <= pos -> n = PAGE - pos mod PAGE -> n < rem -> pages pos rem = 1 + pages (pos + n) (rem - n).
Proof.
  intros P N L. pose proof (pg_split pos) as (P1 & P2 & P3). unfold pages. destruct (rem <=? 0) eqn:A; [lia|]. destruct (rem - n <=? 0) eqn:B; [lia|]. replace (pos + n + (rem - n) - 1) with (pos + rem - 1) by lia. assert (X : (pos + n) / PAGE = pos / PAGE + 1) by (subst n; clear; unfold PAGE; lia). rewrite X. lia.
Qed.
Lemma pages_pos pos rem : 0 <= pos -> 0 < rem -> 1 <= pages pos rem.
Proof. intros P R. unfold pages. destruct (rem <=? 0) eqn:A; [lia|]. assert (pos / PAGE <= (pos + rem - 1) / PAGE) by (apply Z.div_le_mono; unfold PAGE; lia). lia. Qed.
Lemma pages_nonneg pos rem : 0 <= pos -> 0 <= pages pos rem.
Proof. intros P. destruct (Z_lt_dec 0 rem); [pose proof (pages_pos pos rem P l); lia|]. unfold pages. destruct (rem <=? 0) eqn:A; lia. Qed.
Lemma loop_ok M dbg buf : forall fuel i k pos rem tot, wf M i -> 0 <= pos -> 0 <= rem -> pos + rem < M -> (Z.to_nat rem <= fuel)%nat -> 0 <= tot ->
  match write_loop M dbg fuel i k buf pos rem tot with
  | None => dbg = true
  | Some (i', k', pos', tot') => exists n, tot' = tot + n /\ pos' = pos + n /\ 0 <= n <= rem /\ (n < rem -> Z.of_nat k < pages pos rem) /\ (n = rem -> Z.of_nat k <= Z.of_nat k' + pages pos rem) /\
      wf M i' /\ mode i' = mode i /\ fsize i' = (if n =? 0 then fsize i else Z.max (fsize i) (pos + n)) /\ bcount i' - zlen (blocks i') = bcount i - zlen (blocks i) /\
      forall p, byte_of (blocks i') p = if (pos <=? p) && (p <? pos + n) then znth 0 buf (tot + (p - pos)) else byte_of (blocks i) p
  end.
Proof.
  assert (Z0 : forall i pos tot p, byte_of (blocks i) p = if (pos <=? p) && (p <? pos + 0) then znth 0 buf (tot + (p - pos)) else byte_of (blocks i) p) by (intros; destruct ((pos <=? p) && (p <? pos + 0)) eqn:E; [lia|reflexivity]).
  induction fuel as [|fuel IH]; intros i k pos rem tot W P R B F T; cbn [write_loop].
  - exists 0. pose proof (pages_nonneg pos rem P). repeat match goal with |- _ /\ _ => split end; auto; try lia.
  - destruct (negb (rem >? 0)) eqn:E; [exists 0; pose proof (pages_nonneg pos rem P); repeat match goal with |- _ /\ _ => split end; auto; try lia|].
    pose proof (turn_ok M dbg i k buf pos rem tot W P ltac:(lia) B) as H. destruct (write_turn M dbg i k buf pos rem tot) as [|i'|i' pos' n k'].
    + tauto.
    + destruct H as [-> ->]. exists 0. pose proof (pages_pos pos rem P ltac:(lia)). repeat match goal with |- _ /\ _ => split end; auto; try lia.
    + destruct H as (N & -> & W' & Md & Fs & Kk & Bc & Y). pose proof (pg_split pos) as (P1 & P2 & P3). assert (Nn : 0 < n <= rem) by lia.
      specialize (IH i' k' (pos + n) (rem - n) (tot + n) W' ltac:(lia) ltac:(lia) ltac:(lia) ltac:(lia) ltac:(lia)). destruct (write_loop M dbg fuel i' k' buf (pos + n) (rem - n) (tot + n)) as [[[[i2 k2] pos2] tot2]|]; [|exact IH].
      destruct IH as (m & -> & -> & Mm & Sh & Fu & W2 & Md2 & Fs2 & Bc2 & Y2). exists (n + m). split; [lia|]. split; [lia|]. split; [lia|].
      split; [intros L; assert (Nx : n = PAGE - pos mod PAGE) by lia; rewrite (pages_next pos rem n P Nx ltac:(lia)); specialize (Sh ltac:(lia)); lia|].
      split; [intros L; specialize (Fu ltac:(lia)); destruct (Z.eq_dec n rem) as [->|]; [pose proof (pages_pos pos rem P ltac:(lia)); unfold pages in Fu; destruct (rem - rem <=? 0) eqn:Q; lia|]; assert (Nx : n = PAGE - pos mod PAGE) by lia; rewrite (pages_next pos rem n P Nx ltac:(lia)); lia|].
      split; [exact W2|]. split; [congruence|]. split; [clear - Fs2 Fs Nn Mm; rewrite Fs2, Fs; destruct (m =? 0) eqn:Q; destruct (n + m =? 0) eqn:Q2; lia|]. split; [clear - Bc Bc2; lia|].
      intros p. rewrite Y2, Y. clear - Nn Mm. destruct ((pos + n <=? p) && (p <? pos + n + m)) eqn:A1; destruct ((pos <=? p) && (p <? pos + n)) eqn:A2; destruct ((pos <=? p) && (p <? pos + (n + m))) eqn:A3; try lia; try reflexivity. f_equal. lia.
Qed.
Lemma znth_firstn (l : list Z) n i : 0 <= i < n -> znth 0 (firstn (Z.to_nat n) l) i = znth 0 l i.
Proof.
  intros H. unfold znth. assert (X : (Z.to_nat i < Z.to_nat n)%nat) by lia. revert X. generalize (Z.to_nat i), (Z.to_nat n). clear. intros a b. revert a l. induction b as [|b IH]; intros a l H; [lia|]. destruct l as [|x l]; [destruct a; reflexivity|]. destruct a as [|a]; [reflexivity|]. cbn [firstn nth]. apply IH. lia.
Qed.
Lemma zlen_firstn (l : list Z) n : 0 <= n <= zlen l -> zlen (firstn (Z.to_nat n) l) = n.
Proof. intros H. unfold zlen in *. rewrite firstn_length. lia. Qed.
Lemma write_ok M dbg i flags k buf pos : wf M i -> 0 <= pos -> (if has flags O_APPEND then fsize i else pos) + zlen buf < M ->
  match write_nolock M dbg i flags k buf pos with
  | None => dbg = true
  | Some (i', k', rc, pos') => let p0 := if has flags O_APPEND then fsize i else pos in
      exists n, amount k p0 (zlen buf) n /\ rc = wcode (zlen buf) n /\ pos' = p0 + n /\ wf M i' /\ mode i' = mode i /\ (n = zlen buf -> Z.of_nat k <= Z.of_nat k' + pages p0 (zlen buf)) /\
        bcount i' - zlen (blocks i') = bcount i - zlen (blocks i) /\ feq (file_of i') (swrite (file_of i) p0 (firstn (Z.to_nat n) buf))
  end.
Proof.
  intros W P B. unfold write_nolock. rewrite (wf_file _ _ W), andb_false_r. set (p0 := if has flags O_APPEND then fsize i else pos) in *. cbv zeta. assert (P0 : 0 <= p0) by (unfold p0; destruct (has flags O_APPEND); [apply (wf_size _ _ W)|exact P]). clearbody p0.
  pose proof (loop_ok M dbg buf (length buf) i k p0 (zlen buf) 0 W P0 (zlen_nonneg buf) B ltac:(unfold zlen; lia) ltac:(lia)) as H. destruct (write_loop M dbg (length buf) i k buf p0 (zlen buf) 0) as [[[[i' k'] pos'] tot]|]; [|exact H].
  destruct H as (n & -> & -> & N & Sh & Fu & W' & Md & Fs & Bc & Y). exists n. split; [unfold amount; destruct (Z.eq_dec n (zlen buf)); [left; auto|right; split; [lia|apply Sh; lia]]|]. split; [reflexivity|]. split; [reflexivity|]. split; [exact W'|]. split; [exact Md|]. split; [exact Fu|]. split; [exact Bc|].
  unfold feq, swrite, file_of. cbn [size byte]. rewrite zlen_firstn by lia. destruct (n =? 0) eqn:E; cbn [size byte].
  - split; [exact Fs|]. intros p Hp. rewrite Y. destruct ((p0 <=? p) && (p <? p0 + n)) eqn:Q; [lia|reflexivity].
  - split; [exact Fs|]. intros p Hp. rewrite Y. destruct ((p0 <=? p) && (p <? p0 + n)) eqn:Q; [|reflexivity]. rewrite znth_firstn by lia. f_equal; lia.
Qed.
