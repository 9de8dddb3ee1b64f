(** The directory walk sees exactly the items of the directory. *)
From Verif Require Import Lib Fat_Model Fat_Spec Fat_Proofs Fat_Proofs2 Fatdir_Model Fatdir_Spec.

(** * Single entries *)
Lemma sum_eq l acc : sp_sum acc l =
  fold_left (fun sum c => ((if Z.odd sum then 128 else 0) + sum / 2 + c) mod 256) l acc.
Proof.
  revert acc. induction l as [|c r IH]; intros acc; cbn [sp_sum fold_left]; [reflexivity|].
  rewrite IH. f_equal. f_equal. rewrite Zmod_odd. destruct (Z.odd acc); lia.
Qed.
Lemma checksum_eq r : checksum (firstn 11 r) = short_sum r.
Proof. unfold checksum, short_sum. symmetry. apply sum_eq. Qed.

Lemma e_byte_ok v e r i : in_image v e -> bytes (vm v) e 32 = r -> 0 <= i < 32 ->
  e_byte v e i = Ok (znth 0 r i).
Proof.
  intros [A B] E I. unfold e_byte. rewrite ld_ok by lia. rewrite bytes_1. rewrite <- E.
  rewrite bytes_nth by lia. change (Ok (le [vm v (e + i)]) = Ok (vm v (e + i))). f_equal. cbn [le]. lia.
Qed.
Lemma name_ok11 v e r : in_image v e -> bytes (vm v) e 32 = r ->
  ld v e 11 = Ok (firstn 11 r).
Proof.
  intros [A B] E. rewrite ld_ok by lia. f_equal. rewrite <- E. symmetry.
  change 11%nat with (Z.to_nat 11). apply firstn_bytes. lia.
Qed.

Lemma land15 x : Z.land x 15 = x mod 16.
Proof. change 15 with (Z.ones 4). rewrite Z.land_ones by lia. reflexivity. Qed.
Lemma bit3_15 x : x mod 16 = 15 -> Z.testbit x 3 = true.
Proof.
  intros E. rewrite <- land15 in E.
  assert (T : Z.testbit (Z.land x 15) 3 = true) by (rewrite E; reflexivity).
  rewrite Z.land_spec in T. apply andb_true_iff in T. apply T.
Qed.

(** * The long name context *)
Fixpoint collect_u (us : list (Z * Z)) : option (list Z) :=
  match us with
  | [] => Some []
  | (c, hi) :: r =>
      if negb (hi =? 0) then None
      else if (c =? 0) || (c =? 255) then Some []
      else match collect_u r with Some l => Some (c :: l) | None => None end
  end.
Lemma collect_ok v e r offs : in_image v e -> bytes (vm v) e 32 = r ->
  Forall (fun o => 0 <= o < 31) offs ->
  collect v e offs = Ok (collect_u (map (fun o => (znth 0 r o, znth 0 r (o + 1))) offs)).
Proof.
  intros I E F. induction F as [|o os O F IH]; [reflexivity|].
  cbn [collect map collect_u]. rewrite !(e_byte_ok v e r) by (auto; lia). cbn [bind].
  destruct (negb _); [reflexivity|]. destruct (_ || _); [reflexivity|].
  rewrite IH. cbn [bind]. destruct (collect_u _); reflexivity.
Qed.
Lemma offs_ok : Forall (fun o => 0 <= o < 31) name_offs.
Proof. unfold name_offs. repeat constructor; lia. Qed.

Lemma units_len p : (length p <= 13)%nat -> length (units p) = 13%nat.
Proof.
  intros L. unfold units. rewrite app_length, map_length.
  destruct (Nat.ltb_spec (length p) 13).
  - cbn [length]. rewrite repeat_length. lia.
  - cbn [length]. lia.
Qed.
Lemma raw_units o k p : (length p <= 13)%nat ->
  zlen (lfn_raw o k p) = 32 /\
  map (fun i => (znth 0 (lfn_raw o k p) i, znth 0 (lfn_raw o k p) (i + 1))) name_offs = units p /\
  znth 0 (lfn_raw o k p) 11 = 15 /\ znth 0 (lfn_raw o k p) 13 = k.
Proof.
  intros L. apply units_len in L. unfold lfn_raw.
  destruct (units p) as [|[a0 b0] [|[a1 b1] [|[a2 b2] [|[a3 b3] [|[a4 b4] [|[a5 b5] [|[a6 b6]
    [|[a7 b7] [|[a8 b8] [|[a9 b9] [|[aa ba] [|[ab bb] [|[ac bc] [|? ?]]]]]]]]]]]]]]; try discriminate.
  cbn [firstn skipn flat flat_map fst snd app]. repeat split; reflexivity.
Qed.
Lemma char_valid c : char_ok c -> valid_char c = true.
Proof.
  intros [R N]. unfold valid_char. apply andb_true_iff. split; [lia|].
  apply negb_true_iff. apply not_true_is_false. intros E. apply existsb_exists in E.
  destruct E as (x & I & Q). apply Z.eqb_eq in Q. subst x. auto.
Qed.
Lemma collect_units p t : Forall char_ok p ->
  collect_u t = Some [] -> collect_u (map (fun c => (c, 0)) p ++ t) = Some p.
Proof.
  intros F T. induction F as [|c r C F IH]; [exact T|].
  cbn [map app collect_u]. replace (negb (0 =? 0)) with false by reflexivity.
  destruct C as [R _]. replace (_ || _) with false by lia. rewrite IH. reflexivity.
Qed.
Lemma collect_part p : Forall char_ok p -> collect_u (units p) = Some p.
Proof.
  intros F. unfold units. apply collect_units; [exact F|].
  destruct (_ <? _)%nat; reflexivity.
Qed.
Lemma push_ok cs : forall b k, Forall char_ok cs -> zlen b + zlen cs <= 256 ->
  push (L true b k) cs = Ok (L true (b ++ cs) k).
Proof.
  induction cs as [|c r IH]; intros b k F B; [cbn [push]; rewrite app_nil_r; reflexivity|].
  inversion F as [|? ? C F']; subst. cbn [push]. rewrite (char_valid c C).
  rewrite zlen_cons in B. pose proof (zlen_nonneg r). cbn [l_buf l_valid l_chk].
  replace (zlen b <? 256) with true by lia. rewrite IH; [|exact F'|].
  - rewrite <- app_assoc. reflexivity.
  - rewrite zlen_app, zlen_cons, zlen_nil. lia.
Qed.
Lemma push_any cs : forall x, zlen (l_buf x) + zlen cs <= 256 ->
  exists b u, push x cs = Ok (L b u (l_chk x)) /\ zlen u <= zlen (l_buf x) + zlen cs.
Proof.
  induction cs as [|c r IH]; intros x B.
  - exists (l_valid x), (l_buf x). destruct x as [xv xb xk]. cbn [push l_valid l_buf l_chk]. split; [reflexivity|].
    rewrite zlen_nil. lia.
  - rewrite zlen_cons in B. pose proof (zlen_nonneg r). cbn [push].
    destruct (valid_char c).
    + replace (zlen (l_buf x) <? 256) with true by lia.
      destruct (IH (L (l_valid x) (l_buf x ++ [c]) (l_chk x))) as (b & u & E & Q).
      { cbn [l_buf]. rewrite zlen_app, zlen_cons, zlen_nil. lia. }
      cbn [l_buf l_chk] in *. exists b, u. split; [exact E|].
      rewrite zlen_app, zlen_cons, zlen_nil in Q. rewrite zlen_cons. lia.
    + exists false, (l_buf x). split; [reflexivity|]. rewrite zlen_cons. lia.
Qed.
Lemma collect_len us l : collect_u us = Some l -> zlen l <= zlen us.
Proof.
  revert l. induction us as [|[c hi] r IH]; intros l; cbn [collect_u].
  - intros [= <-]. apply Z.le_refl.
  - pose proof (zlen_nonneg r). destruct (negb _); [discriminate|].
    destruct (_ || _); [intros [= <-]; rewrite zlen_cons, zlen_nil; lia|].
    destruct (collect_u r) as [l'|]; [|discriminate]. intros [= <-].
    specialize (IH l' eq_refl). rewrite !zlen_cons. lia.
Qed.

(** one entry of a long name *)
Lemma handle_part v e o k p x : in_image v e -> (length p <= 13)%nat -> Forall char_ok p ->
  bytes (vm v) e 32 = lfn_raw o k p ->
  (l_chk x = k -> l_valid x = true /\ zlen (l_buf x) + zlen p <= 256) ->
  handle_long v x e = Ok (L true ((if l_chk x =? k then l_buf x else []) ++ rev p) k).
Proof.
  intros I LP F E H. destruct (raw_units o k p LP) as (_ & U & _ & K).
  unfold handle_long. rewrite (e_byte_ok v e _ 13 I E) by lia. rewrite K. cbn [bind]. cbv zeta.
  assert (LP2 : zlen p <= 13) by (unfold zlen; lia).
  assert (RP : zlen (rev p) = zlen p) by (unfold zlen; rewrite rev_length; reflexivity).
  rewrite (collect_ok v e _ _ I E offs_ok), U, (collect_part p F). cbn [bind].
  destruct (l_chk x =? k) eqn:Q.
  - apply Z.eqb_eq in Q. destruct (H Q) as [V B]. rewrite V. cbn [negb].
    destruct x as [xv xb xk]. cbn [l_valid l_buf l_chk] in *. subst xv xk.
    apply push_ok; [apply Forall_rev; exact F|]. lia.
  - cbn [negb l_valid]. apply (push_ok (rev p) [] k); [apply Forall_rev; exact F|].
    rewrite (zlen_nil (A:=Z)). lia.
Qed.
(** one leftover entry *)
Lemma handle_junk v e k r x : in_image v e -> bytes (vm v) e 32 = r -> junk_ok k r ->
  (l_chk x = k -> zlen (l_buf x) + 13 <= 256) ->
  exists b u, handle_long v x e = Ok (L b u k) /\
    zlen u <= (if l_chk x =? k then zlen (l_buf x) else 0) + 13.
Proof.
  intros I E (_ & _ & K) B. unfold handle_long. rewrite (e_byte_ok v e r 13 I E) by lia.
  rewrite K. cbn [bind]. cbv zeta. rewrite (collect_ok v e r _ I E offs_ok). cbn [bind].
  set (us := map _ name_offs). assert (UL : zlen us = 13) by reflexivity. clearbody us.
  set (x1 := if l_chk x =? k then x else L true [] k).
  assert (X1 : l_chk x1 = k /\ zlen (l_buf x1) = (if l_chk x =? k then zlen (l_buf x) else 0)).
  { unfold x1. destruct (l_chk x =? k) eqn:Q; [apply Z.eqb_eq in Q|]; split; auto. }
  destruct X1 as [X1 X2]. pose proof (zlen_nonneg (l_buf x)).
  assert (X3 : zlen (l_buf x1) + 13 <= 256) by (rewrite X2; destruct (Z.eqb_spec (l_chk x) k); auto; lia).
  clearbody x1. rewrite <- X2, <- X1. destruct (negb (l_valid x1)) eqn:V.
  - exists (l_valid x1), (l_buf x1). destruct x1 as [xv xb xk]. split; [reflexivity|]. cbn [l_buf]. lia.
  - destruct (collect_u us) as [l|] eqn:C.
    + pose proof (collect_len _ _ C).
      assert (RP : zlen (rev l) = zlen l) by (unfold zlen; rewrite rev_length; reflexivity).
      destruct (push_any (rev l) x1) as (b & u & P & Q); [lia|].
      exists b, u. split; [exact P|]. lia.
    + exists false, (l_buf x1). split; [reflexivity|]. lia.
Qed.
