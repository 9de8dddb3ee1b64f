From Coq Require Import ssreflect.
From Verif Require Import Lib List_Model Itoa_Model Sysfs_Model Sysfs_Spec Sysfs_Proofs Sysfs_Proofs2.
Ltac Zify.zify_post_hook ::= Z.to_euclidean_division_equations.

(** A file written by one handle and read by a later one *)
Lemma saved_and_read w size junk c p b n : sizes_ok w size c -> zlen b <= size p -> 0 <= n ->
  exists s, run w size junk (init c) [Open p; Write 1 b; Close 1; Open p; Read 2 n] =
      Some ([Num 1; Num (zlen b); Unit; Num 2; Bytes (firstn (Z.to_nat n) (b ++ skipn (length b) (c p)))], s) /\
    props s p = b ++ skipn (length b) (c p) /\ forall q, q <> p -> props s q = c q.
Proof.
  move=> Sz Hb Hn. have [W K] := Sz. have [K1 K2] := K p.
  have Eb : firstn (Z.to_nat (size p - 0)) b = b. { apply: firstn_all2. rewrite /zlen in Hb. lia. }
  have [a [H [Ha1 Ha2]]] : exists a, asteps w size (ainit c) [Open p; Write 1 b; Close 1; Open p; Read 2 n]
    [Num 1; Num (zlen (firstn (Z.to_nat (size p - 0)) b)); Unit; Num 2; Bytes (piece (put (c p) 0 (firstn (Z.to_nat (size p - 0)) b)) 0 n)] a /\
    cont a p = put (c p) 0 (firstn (Z.to_nat (size p - 0)) b) /\ forall q, q <> p -> cont a q = c q.
  { eexists. split; [|split].
    eapply SCons; first exact: SOpen. cbn.
    eapply SCons. { eapply SWrite; [done | done | done | cbn; have := zlen_nonneg (c p); lia | done]. } cbn.
    eapply SCons. { eapply SClose; [done | by move=> o _]. } cbn.
    eapply SCons; first exact: SOpen. cbn.
    eapply SCons; last exact: SNil.
    eapply (SRead _ _ _ 2 (AH p (Some (put (c p) 0 (firstn (Z.to_nat (size p - 0)) b))) 0 false None)); [by rewrite /= fupd_same | done | done |].
    cbn. have := zlen_nonneg (put (c p) 0 (firstn (Z.to_nat (size p - 0)) b)). lia.
    - by rewrite /= fupd_same.
    - move=> q Hq. by rewrite /= fupd_other. }
  have [s [H1 H2]] := files_ok w size junk _ _ _ _ Sz H. exists s. rewrite H1 Eb. split; first done.
  rewrite H2 Ha1 Eb. split; first done. move=> q Hq. rewrite H2. exact: Ha2.
Qed.

(** Immutable data *)
Lemma skip2 (a b : nat) (l : list Z) : skipn a (skipn b l) = skipn (a + b) l.
Proof. elim: b l => [|b IH] l; first by rewrite Nat.add_0_r. rewrite Nat.add_succ_r. case: l => [|c l]; first by rewrite !skipn_nil. exact: IH. Qed.
Lemma imm_ok buf : forall lens pos, 0 <= pos <= zlen buf -> (forall n, In n lens -> 0 <= n) ->
  exists rs, imm_reads buf pos lens = Some rs /\ concat rs = firstn (Z.to_nat (fold_right Z.add 0 lens)) (skipn (Z.to_nat pos) buf).
Proof.
  elim=> [|n lens IH] pos Hp Hn.
  - by exists [].
  - have Hn0 := Hn n (or_introl eq_refl).
    have HS : 0 <= fold_right Z.add 0 lens. { elim: (lens) (fun k Hk => Hn k (or_intror Hk)) => [|k l IHl] H //=. have := H k (or_introl eq_refl). have := IHl (fun j Hj => H j (or_intror Hj)). lia. }
    rewrite /= /imm_load /clamp. have -> : Z.min (Z.max pos 0) (zlen buf) = pos by lia.
    rewrite /mem_read. set k := Z.min (zlen buf - pos) n.
    have -> : (0 <=? pos) && (0 <=? k) && (pos + k <=? zlen buf) = true by rewrite /k; lia.
    set l := firstn (Z.to_nat k) _.
    have Ll : zlen l = k by rewrite /l zlen_firstn zlen_skipn /k; lia.
    have Ep : (if 0 <? zlen l then pos + zlen l else pos) = pos + k by case: (Z.ltb_spec 0 (zlen l)); rewrite Ll /k; lia.
    rewrite Ep. have [rs [H1 H2]] := IH (pos + k) ltac:(rewrite /k; lia) (fun j Hj => Hn j (or_intror Hj)).
    rewrite H1. exists (l :: rs). split; first done.
    rewrite /= H2. case: (Z.le_gt_cases n (zlen buf - pos)) => Hc.
    + have Ek : k = n by rewrite /k; lia. rewrite /l Ek.
        have -> : Z.to_nat (n + fold_right Z.add 0 lens) = (Z.to_nat n + Z.to_nat (fold_right Z.add 0%Z lens))%nat by lia.
        have -> : Z.to_nat (pos + n) = (Z.to_nat n + Z.to_nat pos)%nat by lia.
        rewrite -skip2. set t := skipn (Z.to_nat pos) buf.
        rewrite -{3}(firstn_skipn (Z.to_nat n) t) firstn_app firstn_length.
        have Lt : (Z.to_nat n <= length t)%nat by rewrite /t skipn_length; rewrite /zlen in Hc; lia.
        rewrite Nat.min_l // firstn_firstn Nat.min_r; first lia. f_equal. f_equal. lia.
    + have Ek : k = zlen buf - pos by rewrite /k; lia.
        rewrite (skipn_all2 buf) ?firstn_nil ?app_nil_r; first by rewrite Ek /zlen; rewrite /zlen in Hp; lia.
        rewrite /l !firstn_all2 //; rewrite skipn_length; rewrite /zlen in Hc Hp Ek; lia.
Qed.
Lemma imm_whole buf lens : (forall n, In n lens -> 0 <= n) ->
  exists rs, imm_reads buf 0 lens = Some rs /\ concat rs = firstn (Z.to_nat (fold_right Z.add 0 lens)) buf.
Proof. move=> H. have [|rs [H1 H2]] := imm_ok buf lens 0 _ H; first by have := zlen_nonneg buf; lia. by exists rs. Qed.

(** A string is the first line of the data, when the line ends inside the memory *)
Lemma copy_ok mem : forall lim r, str_copy mem lim = Some r -> r = firstn lim (line mem).
Proof.
  elim: mem => [|c mem IH] lim r //=. case: ((c =? 0) || (c =? 10)); first by move=> [<-]; rewrite firstn_nil.
  case: lim => [|lim]; first by move=> [<-]. case E: (str_copy mem lim) => [r'|] //= [<-]. by rewrite (IH _ _ E).
Qed.
Lemma copy_total mem : forall lim, (lim < length mem)%nat \/ In 0 mem \/ In 10 mem -> exists r, str_copy mem lim = Some r.
Proof.
  elim: mem => [|c mem IH] lim H /=; first by exfalso; move: H => [|[]] //=; lia.
  case Ec: ((c =? 0) || (c =? 10)); first by exists [].
  case: lim H => [|lim] H; first by exists [].
  have [|r Hr] := IH lim; last by rewrite Hr; exists (c :: r).
  move: H => [H|[[H|H]|[H|H]]]; [left; move: H; rewrite /=; lia | lia | tauto | lia | tauto].
Qed.
Lemma config_ok sz mem n : 0 < sz -> 0 <= n -> n < zlen mem \/ sz <= zlen mem \/ In 0 mem \/ In 10 mem ->
  config_store sz mem n = Some (firstn (Z.to_nat (Z.min n (sz - 1))) (line mem)).
Proof.
  move=> H1 H2 H3. rewrite /config_store.
  have [|r Hr] := copy_total mem (Z.to_nat (Z.min n (sz - 1))); last by rewrite Hr (copy_ok _ _ _ Hr).
  rewrite /zlen in H3. move: H3 => [H|[H|H]]; [left; lia | left; lia | by right].
Qed.

(** A number is parsed up to the character behind it *)
Lemma loop_more w sg base sign str : forall l n res r z, strtol_loop w sg base sign str l n res = Some r -> strtol_loop w sg base sign str (l ++ z) n res = Some r.
Proof.
  elim=> [|c l IH] n res r z //=. case: ((c =? 0) || negb (is_valid_digit c base)) => //.
  set o := if sg then _ else _. case: o => //. exact: IH.
Qed.
Lemma strtol_more w sg l base r z : strtol w sg l base = Some r -> strtol w sg (l ++ z) base = Some r.
Proof.
  rewrite /strtol. case: ((2 <=? base) && (base <=? 16)) => //. case: l => [|c l] //=.
  case: (sg && (c =? 45)); first exact: loop_more. move=> H. exact: (loop_more _ _ _ _ _ (c :: l) _ _ _ z H).
Qed.
Lemma num_ok w sgn v text rest n r : zlen text <= 31 -> 31 <= zlen (text ++ rest) -> n <= 32 -> n <= zlen (text ++ rest) ->
  strtol w sgn text 10 = Some r -> num_store w sgn v (text ++ rest) n = Some (match p_err r with NoErr => p_val r | _ => v end).
Proof.
  move=> H1 H2 H3 H4 Hs. rewrite /num_store /mem_read.
  have -> : (0 <=? 0) && (0 <=? Z.max n 31) && (0 + Z.max n 31 <=? zlen (text ++ rest)) = true by lia.
  rewrite Z2Nat.inj_0 skipn_O /mem_write zlen_firstn.
  have -> : (0 <=? 0) && (0 + Z.min (Z.of_nat (Z.to_nat (Z.max n 31))) (zlen (text ++ rest)) <=? zlen (repeat 0 32)) = true.
  { rewrite {2}/zlen repeat_length. lia. }
  rewrite Z2Nat.inj_0 firstn_O app_nil_l firstn_app (firstn_all2 text); first by rewrite /zlen in H1; lia.
  by rewrite -app_assoc (strtol_more _ _ _ _ _ _ Hs).
Qed.
Lemma bool_ok v mem r : bool_store v mem = Some r -> r = true -> v = true.
Proof.
  case: mem => [|c0 [|c1 mem]] //= [<-].
  case E: (((c0 =? 48) || (c1 =? 49)) && ((c1 =? 0) || (c1 =? 10) || (c1 =? 13))) => //. lia.
Qed.
