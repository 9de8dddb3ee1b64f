(** Where the loader goes wrong. *)
From Coq Require Import ssreflect.
From Verif Require Import Lib User_Model User_Spec Elf_Model Elf_Spec Elf_Proofs Elf_Proofs2 Elf_Proofs3.
Ltac Zify.zify_post_hook ::= Z.to_euclidean_division_equations.

(** A segment at a kernel address is loaded there *)
Lemma kernel_segment c al f s g gs brk ms : good_cfg c -> p_type g = 1 -> aligned g = true -> base c <= p_va g -> 0 < p_msz g ->
  p_va g + p_msz g + 4096 <= modulus c -> f_seek f (p_off g) = true -> f_mmap f = false \/ w_ok g = true ->
  load_segs c al f s (g :: gs) brk ms = LsKern (p_va g / 4096).
Proof.
  move=> [_ [B [BM B4]]] T AG V M E SK MW. cbn [load_segs]. rewrite T AG /=.
  have -> : (if f_mmap f then load_mmap c al f s g else load_copy c al f s g) = load_copy c al f s g.
  { case: MW => [-> // | W]. rewrite /load_mmap W. by case: (f_mmap f). }
  rewrite /load_copy. have -> : (p_msz g =? 0) = false by lia. rewrite SK /=.
  have SP : span c g = p_va g + p_msz g - p_va g / 4096 * 4096 by rewrite /span; apply: Z.mod_small; lia.
  have PG : pages c g = (p_va g + p_msz g - p_va g / 4096 * 4096 + 4095) / 4096.
  { rewrite /pages SP. f_equal. apply: Z.mod_small. lia. }
  have [n ->] : exists n, Z.to_nat (pages c g) = S n by exists (Z.to_nat (pages c g) - 1)%nat; lia.
  cbn [copy_loop]. by have -> : (base c / 4096 <=? p_va g / 4096) = true by lia.
Qed.

(** Segments of one page *)
Lemma one_page c v off msz o fsz al_ fl : good_cfg c -> 0 <= v -> 0 <= off -> 0 < msz -> off + msz <= 4096 -> v * 4096 + 4096 <= base c ->
  let g := Seg 1 o (v * 4096 + off) fsz msz al_ fl in
  pages c g = 1 /\ p_va g / 4096 = v /\ (v * 4096 + 1 * 4096) mod modulus c = v * 4096 + 4096.
Proof.
  move=> G V O M E B g. have [P1 [P2 [P3 [P4 P5]]]] := sizes c g G ltac:(cbn; lia) ltac:(cbn; lia) ltac:(cbn; lia).
  have PG : pages c g = 1 by move: P1; rewrite /g; cbn [p_va p_msz] => ->; lia. rewrite PG. split; first done. split; first by cbn; lia.
  apply: Z.mod_small. case: G => [_ [_ [? _]]]. lia.
Qed.

(** A writable segment in the same page as a mapped read-only one is copied into the file *)
Lemma file_written c al f s v p1 p2 : good_cfg c -> 0 <= v -> v * 4096 + 4096 <= base c -> al v = true -> pt s v = None ->
  f_mmap f = true -> f_blk f p1 = true -> f_seek f (p2 * 4096 + 2048) = true -> p2 * 4096 + 4096 <= f_size f -> 0 <= p1 -> 0 <= p2 ->
  exists s' b m, load_segs c al f s [Seg 1 (p1 * 4096) (v * 4096) 2048 2048 4096 4;
                                     Seg 1 (p2 * 4096 + 2048) (v * 4096 + 2048) 100 100 4096 6] 0 [] = LsOk s' b m /\
    forall k, 0 <= k < 100 -> fb s' (p1 * 4096 + 2048 + k) = fb s (p2 * 4096 + 2048 + k).
Proof.
  move=> G V B AL PT FM BL SK SZ P1 P2.
  have [A1 [A2 A3]] := one_page c v 0 2048 (p1 * 4096) 2048 4096 4 G V ltac:(lia) ltac:(lia) ltac:(lia) B.
  have [B1 [B2 B3]] := one_page c v 2048 100 (p2 * 4096 + 2048) 100 4096 6 G V ltac:(lia) ltac:(lia) ltac:(lia) B.
  rewrite Z.add_0_r in A1 A2. cbn [load_segs]. rewrite FM. cbn [p_type Z.eqb Pos.eqb negb].
  have -> : aligned (Seg 1 (p1 * 4096) (v * 4096) 2048 2048 4096 4) = true by rewrite /aligned; cbn [p_off p_va p_align]; lia.
  have -> : aligned (Seg 1 (p2 * 4096 + 2048) (v * 4096 + 2048) 100 100 4096 6) = true by rewrite /aligned; cbn [p_off p_va p_align]; lia.
  cbn [negb]. rewrite /load_mmap. have -> : w_ok (Seg 1 (p1 * 4096) (v * 4096) 2048 2048 4096 4) = false by [].
  have -> : w_ok (Seg 1 (p2 * 4096 + 2048) (v * 4096 + 2048) 100 100 4096 6) = true by [].
  rewrite A1 A2 A3. cbn [p_off p_msz Z.eqb]. have -> : p1 * 4096 / 4096 = p1 by lia.
  change (Z.to_nat 1) with 1%nat. cbn [seq map filter]. have -> : p1 + Z.of_nat 0 = p1 by lia. rewrite BL. cbn [mmap_loop].
  have -> : (base c / 4096 <=? v) = false by case: G => [_ [_ [_ ?]]]; lia. rewrite PT AL.
  set s1 := St _ _ _. rewrite /load_copy. cbn [p_msz p_off p_fsz Z.eqb]. rewrite SK B1 B2 B3. cbn [negb p_va].
  change (Z.to_nat 1) with 1%nat. cbn [copy_loop].
  have -> : (base c / 4096 <=? v) = false by case: G => [_ [_ [_ ?]]]; lia.
  have EP : pt s1 v = Some (Some p1, false) by rewrite /s1 /= Z.eqb_refl. rewrite EP. cbn [Z.eqb].
  have -> : (v * 4096 + 2048) mod 4096 = 2048 by lia. change (Z.min 100 (4096 - 2048)) with 100.
  have -> : (f_size f <? p2 * 4096 + 2048 + 100) = false by lia.
  have -> : w_ok (Seg 1 (p2 * 4096 + 2048) (v * 4096 + 2048) 100 100 4096 6) = true by [].
  eexists _, _, _. split; first reflexivity. move=> k K. rewrite /put EP. cbn [fb].
  have -> : (p1 * 4096 + 2048 <=? p1 * 4096 + 2048 + k) && (p1 * 4096 + 2048 + k <? p1 * 4096 + 2048 + 100) = true by lia.
  rewrite /s1. cbn [fb]. f_equal. lia.
Qed.

(** The part of a mapped read-only segment that is not in its file bytes is not zero *)
Lemma ro_tail c al f s v p : good_cfg c -> 0 <= v -> v * 4096 + 4096 <= base c -> al v = true -> pt s v = None ->
  f_mmap f = true -> f_blk f p = true -> 0 <= p ->
  exists s' b m, load_segs c al f s [Seg 1 (p * 4096) (v * 4096) 1 2 4096 4] 0 [] = LsOk s' b m /\
    view s' (v * 4096 + 1) = Some (fb s (p * 4096 + 1)).
Proof.
  move=> G V B AL PT FM BL P.
  have [A1 [A2 A3]] := one_page c v 0 2 (p * 4096) 1 4096 4 G V ltac:(lia) ltac:(lia) ltac:(lia) B.
  rewrite Z.add_0_r in A1 A2. cbn [load_segs]. rewrite FM. cbn [p_type Z.eqb Pos.eqb negb].
  have -> : aligned (Seg 1 (p * 4096) (v * 4096) 1 2 4096 4) = true by rewrite /aligned; cbn [p_off p_va p_align]; lia.
  cbn [negb]. rewrite /load_mmap. have -> : w_ok (Seg 1 (p * 4096) (v * 4096) 1 2 4096 4) = false by [].
  rewrite A1 A2 A3. cbn [p_off p_msz Z.eqb]. have -> : p * 4096 / 4096 = p by lia.
  change (Z.to_nat 1) with 1%nat. cbn [seq map filter]. have -> : p + Z.of_nat 0 = p by lia. rewrite BL. cbn [mmap_loop].
  have -> : (base c / 4096 <=? v) = false by case: G => [_ [_ [_ ?]]]; lia. rewrite PT AL.
  eexists _, _, _. split; first reflexivity. rewrite /view. have -> : (v * 4096 + 1) / 4096 = v by lia. cbn [pt]. rewrite Z.eqb_refl.
  cbn [fb]. do 2 f_equal. lia.
Qed.

(** More bytes in the file than in memory: accepted; bytes behind the segment are the file's, the rest is not loaded *)
Lemma bad_sizes c al f s v : good_cfg c -> 0 <= v -> v * 4096 + 4096 <= base c -> al v = true -> pt s v = None -> pt s (v + 1) = None ->
  f_mmap f = false -> f_seek f 0 = true -> 8192 <= f_size f ->
  exists s' b m, load_segs c al f s [Seg 1 0 (v * 4096) 8192 1 4096 6] 0 [] = LsOk s' b m /\
    (forall k, 1 <= k < 4096 -> view s' (v * 4096 + k) = Some (fb s k)) /\ pt s' (v + 1) = None.
Proof.
  move=> G V B AL PT PT1 FM SK SZ.
  have [A1 [A2 A3]] := one_page c v 0 1 0 8192 4096 6 G V ltac:(lia) ltac:(lia) ltac:(lia) B.
  rewrite Z.add_0_r in A1 A2. cbn [load_segs]. rewrite FM. cbn [p_type Z.eqb Pos.eqb negb].
  have -> : aligned (Seg 1 0 (v * 4096) 8192 1 4096 6) = true by rewrite /aligned; cbn [p_off p_va p_align]; lia.
  cbn [negb]. rewrite /load_copy. rewrite A1 A2 A3. cbn [p_off p_msz p_fsz p_va Z.eqb]. rewrite SK. cbn [negb].
  change (Z.to_nat 1) with 1%nat. cbn [copy_loop].
  have -> : (base c / 4096 <=? v) = false by case: G => [_ [_ [_ ?]]]; lia. rewrite PT AL. cbn [Z.eqb].
  have -> : (v * 4096) mod 4096 = 0 by lia. change (Z.min 8192 (4096 - 0)) with 4096.
  have -> : (f_size f <? 0 + 4096) = false by lia. have -> : w_ok (Seg 1 0 (v * 4096) 8192 1 4096 6) = true by [].
  eexists _, _, _. split; first reflexivity. rewrite put_own; first by move=> p rw /=; rewrite Z.eqb_refl. split.
  - move=> k K. rewrite /view. have -> : (v * 4096 + k) / 4096 = v by lia. cbn [pt]. rewrite /new_page /= Z.eqb_refl.
    have -> : (v * 4096 + 0 <=? v * 4096 + k) && (v * 4096 + k <? v * 4096 + 0 + 4096) = true by lia. do 2 f_equal. lia.
  - rewrite /new_page /=. by have -> : (v + 1 =? v) = false by lia.
Qed.

(** A hole in a mapped file: the pages behind it move forward *)
Lemma hole_shifts c al f s v : good_cfg c -> 0 <= v -> v * 4096 + 8192 <= base c -> al v = true -> pt s v = None -> pt s (v + 1) = None ->
  f_mmap f = true -> f_blk f 0 = false -> f_blk f 1 = true ->
  exists s' b m, load_segs c al f s [Seg 1 0 (v * 4096) 8192 8192 4096 4] 0 [] = LsOk s' b m /\
    view s' (v * 4096) = Some (fb s 4096) /\ view s' (v * 4096 + 4096) = None.
Proof.
  move=> G V B AL PT PT1 FM B0 B1. set g := Seg 1 0 (v * 4096) 8192 8192 4096 4.
  have [P1 [P2 [P3 [P4 P5]]]] := sizes c g G ltac:(cbn; lia) ltac:(cbn; lia) ltac:(cbn; lia).
  have PG : pages c g = 2 by rewrite P1; cbn [p_va p_msz g]; lia.
  have VA : p_va g / 4096 = v by cbn [p_va g]; lia.
  cbn [load_segs]. rewrite FM. have -> : negb (p_type g =? 1) = false by [].
  have -> : aligned g = true by rewrite /aligned /g; cbn [p_off p_va p_align]; lia. cbn [negb]. rewrite /load_mmap. have -> : w_ok g = false by [].
  rewrite VA in P2. rewrite VA P2 PG. have -> : p_off g = 0 by []. have -> : p_msz g = 8192 by []. cbn [Z.eqb]. change (Z.to_nat 2) with 2%nat. change (0 / 4096) with 0. cbn [seq map filter].
  change (0 + Z.of_nat 0) with 0. change (0 + Z.of_nat 1) with 1. rewrite B0 B1. cbn [mmap_loop].
  have -> : (base c / 4096 <=? v) = false by case: G => [_ [_ [_ ?]]]; lia. rewrite PT AL.
  eexists _, _, _. split; first reflexivity. rewrite /view. have -> : (v * 4096) / 4096 = v by lia.
  have -> : (v * 4096 + 4096) / 4096 = v + 1 by lia. cbn [pt fb]. rewrite Z.eqb_refl. have -> : (v + 1 =? v) = false by lia.
  rewrite PT1. split => //. do 2 f_equal. lia.
Qed.

(** A read-only segment in a page of a writable one, before or after it: not writable *)
Lemma frame_ro gs g pg : forall old, In g gs -> touches pg g = true -> w_ok g = false ->
  exists fr, fold_left (fun old g =>
    if touches pg g
    then if false && negb (w_ok g) then Some (Some (p_off g / 4096 + (pg - p_va g / 4096)), false)
         else match old with Some (fr, rw) => Some (fr, rw && w_ok g) | None => Some (None, w_ok g) end
    else old) gs old = Some (fr, false).
Proof.
  have RO : forall gs fr, exists fr', fold_left (fun old g =>
    if touches pg g
    then if false && negb (w_ok g) then Some (Some (p_off g / 4096 + (pg - p_va g / 4096)), false)
         else match old with Some (fr, rw) => Some (fr, rw && w_ok g) | None => Some (None, w_ok g) end
    else old) gs (Some (fr, false)) = Some (fr', false) :> option (option Z * bool).
  { elim=> [| h hs IH] fr /=; first by exists fr. case: (touches pg h); exact: IH. }
  elim: gs => [| h gs IH] old //= [-> | I] T W; last exact: IH.
  rewrite T W /=. case: old => [[fr rw] | ]; last exact: RO. rewrite Bool.andb_false_r. exact: RO.
Qed.
Lemma made_ro c nst al f s gs g pg : good_cfg c -> 0 <= nst -> nst * 4096 <= base c -> (forall x, al x = true) ->
  Forall (fits c nst f) gs -> f_mmap f = false -> (forall x, pt s x = None) -> In g gs -> touches pg g = true -> w_ok g = false ->
  exists s' b m fr, load_elf c nst al f s gs = LsOk s' b m /\ pt s' pg = Some (fr, false).
Proof.
  move=> G N NB AL FT FM S0 I T W. have GB : base c mod 4096 = 0 by case: G => [_ [_ [_ ?]]].
  have [s' [E [_ [EP _]]]] := load_exact c nst f al s gs G N NB AL FT ltac:(by rewrite FM) S0.
  have [fr F] := frame_ro gs g pg None I T W.
  exists s', (brk_of gs), (maps_of gs ++ [(base c - nst * 4096, nst * 4096, 3); (brk_of gs, 0, 3)]), fr. split => //. rewrite EP FM.
  case E1: (in_stack c nst pg).
  - move: (below c nst f gs pg FT GB). rewrite /in_stack in E1. move=> /(_ ltac:(lia) g I). by rewrite T.
  - exact: F.
Qed.
