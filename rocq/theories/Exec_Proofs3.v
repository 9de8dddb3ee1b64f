(** Scripts. *)
From Coq Require Import ssreflect.
From Verif Require Import Lib User_Model User_Spec Exec_Model Exec_Spec Exec_Proofs2.

Lemma agetp (pre t : list Z) x i : i = zlen pre -> aget (pre ++ x :: t) i = Some x.
Proof. exact: aget_app. Qed.
Lemma asetp (pre t : list Z) x y i : i = zlen pre -> aset (pre ++ x :: t) i y = Some (pre ++ y :: t).
Proof. exact: aset_app. Qed.

Lemma skip_ok k : forall fuel pre x t, x <> 32 -> (k < fuel)%nat ->
  skip_sp fuel (pre ++ repeat 32 k ++ x :: t) (zlen pre) = Some (zlen pre + Z.of_nat k).
Proof.
  elim: k => [| k IH] [| fuel] pre x t X F; try lia; cbn [skip_sp repeat app].
  - rewrite agetp //. have -> : (x =? 32) = false by lia. f_equal. lia.
  - rewrite agetp // Z.eqb_refl.
    have E : pre ++ 32 :: repeat 32 k ++ x :: t = (pre ++ [32]) ++ repeat 32 k ++ x :: t by rewrite -app_assoc.
    have L : zlen pre + 1 = zlen (pre ++ [32]) by rewrite zlen_app.
    rewrite E L IH //; first lia. f_equal. rewrite zlen_app. change (zlen [32]) with 1. lia.
Qed.

Definition wordc (b : Z) : Prop := b <> 0 /\ b <> 10 /\ b <> 32.
Definition argc_ (b : Z) : Prop := b <> 0 /\ b <> 10.

Lemma scan_word w : forall fuel pre t hd, Forall wordc w -> (length w < fuel)%nat -> zlen pre + zlen w <= hd + hsize ->
  scan fuel (pre ++ w ++ t) hd (zlen pre) None = scan (fuel - length w) (pre ++ w ++ t) hd (zlen pre + zlen w) None.
Proof.
  elim: w => [| b w IH] fuel pre t hd F L B.
  - change (zlen (@nil Z)) with 0. by rewrite Z.add_0_r Nat.sub_0_r.
  - inversion F as [| ? ? [B0 [B1 B2]] F']; subst. rewrite zlen_cons in B. have Lw := zlen_nonneg w.
    case: fuel L => [| fuel] L; first by cbn [length] in L; lia.
    have E : pre ++ (b :: w) ++ t = (pre ++ [b]) ++ w ++ t by rewrite -app_assoc.
    rewrite {1}E. cbn [scan]. have -> : aget ((pre ++ [b]) ++ w ++ t) (zlen pre) = Some b by rewrite -app_assoc; exact: agetp.
    have -> : (b =? 0) || (hd + hsize <=? zlen pre) = false by lia.
    have -> : (b =? 32) = false by lia. cbn [andb].
    have -> : aget ((pre ++ [b]) ++ w ++ t) (zlen pre) = Some b by rewrite -app_assoc; exact: agetp.
    have -> : (b =? 10) = false by lia.
    have LP : zlen pre + 1 = zlen (pre ++ [b]) by rewrite zlen_app.
    rewrite LP IH //; [by cbn [length] in L; lia | by rewrite zlen_app; change (zlen [b]) with 1; lia |].
    rewrite -E. f_equal. rewrite zlen_app !zlen_cons. change (zlen (@nil Z)) with 0. lia.
Qed.

Lemma scan_arg l w : forall fuel pre t hd, Forall argc_ w -> (length w < fuel)%nat -> zlen pre + zlen w <= hd + hsize ->
  scan fuel (pre ++ w ++ t) hd (zlen pre) (Some l) = scan (fuel - length w) (pre ++ w ++ t) hd (zlen pre + zlen w) (Some l).
Proof.
  elim: w => [| b w IH] fuel pre t hd F L B.
  - change (zlen (@nil Z)) with 0. by rewrite Z.add_0_r Nat.sub_0_r.
  - inversion F as [| ? ? [B0 B1] F']; subst. rewrite zlen_cons in B. have Lw := zlen_nonneg w.
    case: fuel L => [| fuel] L; first by cbn [length] in L; lia.
    have E : pre ++ (b :: w) ++ t = (pre ++ [b]) ++ w ++ t by rewrite -app_assoc.
    rewrite {1}E. cbn [scan]. have -> : aget ((pre ++ [b]) ++ w ++ t) (zlen pre) = Some b by rewrite -app_assoc; exact: agetp.
    have -> : (b =? 0) || (hd + hsize <=? zlen pre) = false by lia.
    rewrite Bool.andb_false_r.
    have -> : aget ((pre ++ [b]) ++ w ++ t) (zlen pre) = Some b by rewrite -app_assoc; exact: agetp.
    have -> : (b =? 10) = false by lia.
    have LP : zlen pre + 1 = zlen (pre ++ [b]) by rewrite zlen_app.
    rewrite LP IH //; [by cbn [length] in L; lia | by rewrite zlen_app; change (zlen [b]) with 1; lia |].
    rewrite -E. f_equal. rewrite zlen_app !zlen_cons. change (zlen (@nil Z)) with 0. lia.
Qed.

Lemma scan_end fuel pre t hd l : zlen pre < hd + hsize ->
  scan (S fuel) (pre ++ 10 :: t) hd (zlen pre) l = Line (pre ++ 0 :: t) l.
Proof.
  move=> B. cbn [scan]. rewrite agetp //. have -> : (10 =? 0) || (hd + hsize <=? zlen pre) = false by lia.
  have -> : (10 =? 32) = false by []. cbn [andb]. rewrite agetp // Z.eqb_refl asetp //.
Qed.

Lemma scan_blank fuel pre x t hd : zlen pre < hd + hsize ->
  scan (S fuel) (pre ++ 32 :: x :: t) hd (zlen pre) None =
    if x =? 10 then Line (pre ++ 0 :: 0 :: t) (Some (zlen pre + 1))
    else scan fuel (pre ++ 0 :: x :: t) hd (zlen pre + 2) (Some (zlen pre + 1)).
Proof.
  move=> B. cbn [scan]. rewrite agetp //. have -> : (32 =? 0) || (hd + hsize <=? zlen pre) = false by lia.
  rewrite Z.eqb_refl. cbn [andb]. rewrite asetp //.
  have E : forall y, pre ++ 0 :: y :: t = (pre ++ [0]) ++ y :: t by move=> y; rewrite -app_assoc.
  have L : zlen pre + 1 = zlen (pre ++ [0]) by rewrite zlen_app.
  rewrite (E x) agetp //. case: (x =? 10); last by f_equal; lia. rewrite asetp //. by rewrite -E.
Qed.

(** The whole line *)
Lemma scan_line pre interp arg t hd fuel : interp <> [] -> Forall wordc interp -> (forall a, arg = Some a -> Forall argc_ a) ->
  hd = zlen pre -> (length interp + match arg with None => 0 | Some a => length a end + 3 <= fuel)%nat ->
  zlen interp + match arg with None => 0 | Some a => 1 + zlen a end < hsize ->
  scan fuel (pre ++ interp ++ (match arg with None => [] | Some a => 32 :: a end) ++ 10 :: t) hd hd None =
    match arg with
    | None => Line (pre ++ interp ++ 0 :: t) None
    | Some a => Line (pre ++ interp ++ 0 :: a ++ 0 :: t) (Some (hd + zlen interp + 1))
    end.
Proof.
  move=> N FI FA -> FU B. have LI := zlen_nonneg interp.
  case: arg FA FU B => [a |] FA FU B.
  - have LA := zlen_nonneg a. rewrite scan_word //; [lia | lia |].
    have [f F] : exists f, (fuel - length interp)%nat = S f by exists (fuel - length interp - 1)%nat; lia. rewrite F.
    have -> : pre ++ interp ++ (32 :: a) ++ 10 :: t = (pre ++ interp) ++ 32 :: a ++ 10 :: t by rewrite -app_assoc.
    have -> : zlen pre + zlen interp = zlen (pre ++ interp) by rewrite zlen_app.
    have BB : zlen (pre ++ interp) < zlen pre + hsize by rewrite zlen_app; lia.
    have FAa := FA a eq_refl.
    case: a {FA} FAa FU B LA => [| b a] FAa FU B LA; cbn [app].
    + rewrite scan_blank // Z.eqb_refl. by rewrite -app_assoc.
    + rewrite scan_blank //. inversion FAa as [| ? ? [B0 B1] FA']; subst. have -> : (b =? 10) = false by lia.
      set P := pre ++ interp. set Q := P ++ [0; b].
      have E1 : P ++ 0 :: b :: a ++ 10 :: t = Q ++ a ++ 10 :: t by rewrite /Q -app_assoc.
      have E2 : zlen P + 2 = zlen Q by rewrite /Q zlen_app.
      rewrite zlen_cons in B LA. have LQ : zlen Q = zlen pre + zlen interp + 2 by rewrite -E2 /P zlen_app.
      have La := zlen_nonneg a.
      rewrite E1 E2 scan_arg //; [by cbn [length] in FU; lia | lia |].
      have [f' F'] : exists f', (f - length a)%nat = S f' by exists (f - length a - 1)%nat; cbn [length] in FU; lia. rewrite F'.
      rewrite app_assoc. have -> : zlen Q + zlen a = zlen (Q ++ a) by rewrite zlen_app.
      rewrite scan_end; first by rewrite zlen_app; lia.
      by rewrite /Q /P -!app_assoc.
  - rewrite scan_word //; [lia | lia |].
    have [f F] : exists f, (fuel - length interp)%nat = S f by exists (fuel - length interp - 1)%nat; lia. rewrite F.
    cbn [app]. rewrite app_assoc. have -> : zlen pre + zlen interp = zlen (pre ++ interp) by rewrite zlen_app.
    rewrite scan_end; first by rewrite zlen_app; lia. by rewrite -app_assoc.
Qed.

Lemma nargs_ok argv n fuel : forall i, 0 <= i <= n -> n <= 30 -> (Z.to_nat (n - i) < fuel)%nat ->
  (forall j, 0 <= j < n -> argv j <> 0) -> argv n = 0 -> nargs argv fuel i = Some n.
Proof.
  elim: fuel => [| fuel IH] i I N F P Z0; first lia. cbn [nargs].
  case: (Z.eqb_spec (argv i) 0) => A.
  - case: (Z.eqb_spec i n) => [-> // | D]. exfalso. apply: (P i) => //. lia.
  - case: (Z.eqb_spec i n) => [E | D]; first by subst. rewrite /slots. have -> : (32 - 2 <=? i) = false by lia.
    apply: IH => //; lia.
Qed.
Lemma nargs_many argv fuel : (forall j, 0 <= j <= 30 -> argv j <> 0) -> forall i, 0 <= i <= 30 -> nargs argv fuel i = None.
Proof.
  move=> P. elim: fuel => [| fuel IH] i I //. cbn [nargs]. have := P i I. rewrite /slots.
  case: (Z.eqb_spec (argv i) 0) => // _ _. case: (Z.leb_spec (32 - 2) i) => // J. apply: IH. lia.
Qed.

(** The first [n] pointers *)
Definition ptrs (argv : Z -> Z) (n : Z) : list Z := map (fun i => argv (Z.of_nat i)) (seq 0 (Z.to_nat n)).
Lemma ptrs_len argv n : 0 <= n -> zlen (ptrs argv n) = n.
Proof. move=> N. rewrite /ptrs zlen_map /zlen seq_length. lia. Qed.
Lemma ptrs_cons argv n : 0 < n -> ptrs argv n = argv 0 :: ptrs (fun i => argv (i + 1)) (n - 1).
Proof.
  move=> N. rewrite /ptrs. have -> : Z.to_nat n = S (Z.to_nat (n - 1)) by lia. cbn [seq map]. f_equal.
  rewrite -seq_shift map_map. apply: map_ext => i. f_equal. lia.
Qed.

(** The header after the sentinel is set *)
Lemma sentinel (l rest : list Z) : zlen (l ++ rest) = hsize -> zlen l < hsize ->
  exists rest', aset (l ++ rest) (hsize - 1) 0 = Some (l ++ rest') /\ zlen rest' = zlen rest.
Proof.
  rewrite zlen_app /hsize => L LL. have [p [x [s [E P]]]] := list_split_at rest (127 - zlen l) ltac:(have := zlen_nonneg l; lia).
  rewrite E. exists (p ++ 0 :: s). rewrite app_assoc asetp; first by rewrite zlen_app; lia.
  split; first by rewrite -app_assoc. by rewrite !zlen_app !zlen_cons.
Qed.

Lemma skip_head (pre t : list Z) i : i = zlen pre -> skipn (Z.to_nat i) (pre ++ t) = t.
Proof. move=> ->. rewrite /zlen Nat2Z.id skipn_app skipn_all Nat.sub_diag //. Qed.

Lemma script_ok hb h row path argv n interp arg : script h interp arg -> zlen row = slots ->
  1 <= n -> n + zlen (extra arg) <= 30 -> (forall i, 0 <= i < n -> argv i <> 0) -> argv n = 0 ->
  exists h' hd la junk, handle_script hb h row path argv =
      SRun h' ((hb + hd) :: (match arg with None => [] | Some _ => [hb + la] end) ++
               path :: ptrs (fun i => argv (i + 1)) (n - 1) ++ 0 :: junk) /\
    0 <= hd < hsize /\ 0 <= la < hsize /\ cstr (skipn (Z.to_nat hd) h') = interp /\
    (forall a, arg = Some a -> cstr (skipn (Z.to_nat la) h') = a).
Proof.
  move=> [k [rest [E [H [LL [N [FI FA]]]]]]] R N1 N2 P Z0.
  have [rest' [AS LR]] := sentinel (line k interp arg) rest ltac:(by rewrite -E) LL.
  rewrite E /handle_script AS (nargs_ok argv n 40 0) //; [lia | by have := zlen_nonneg (extra arg); lia | by have := zlen_nonneg (extra arg); lia |].
  set pre := [35; 33] ++ repeat 32 k.
  have LK : zlen (repeat 32 k) = Z.of_nat k by rewrite /zlen repeat_length.
  have LP : zlen pre = 2 + Z.of_nat k by rewrite /pre zlen_app LK.
  have EL : line k interp arg ++ rest' = pre ++ interp ++ (match arg with None => [] | Some a => 32 :: a end) ++ 10 :: rest'.
  { rewrite /line /pre -!app_assoc. by []. }
  have LN : zlen (line k interp arg) = 3 + Z.of_nat k + zlen interp + match arg with None => 0 | Some a => 1 + zlen a end.
  { rewrite /line !zlen_app LK. change (zlen [10]) with 1. change (zlen [35; 33]) with 2.
    case: (arg) => [a |]; rewrite ?zlen_cons; change (zlen (@nil Z)) with 0; lia. }
  rewrite EL. have LI := zlen_nonneg interp. rewrite LN /hsize in LL.
  have LA : 0 <= match arg with None => 0 | Some a => 1 + zlen a end by case: (arg) => [a |]; have := zlen_nonneg (A:=Z); [move=> /(_ a); lia | lia].
  have [x [it EI]] : exists x it, interp = x :: it by case: (interp) N => [| x it] // _; exists x, it.
  have [X0 [X1 X2]] : wordc x by rewrite EI in FI; inversion FI.
  have SK : skip_sp 200 (pre ++ interp ++ (match arg with None => [] | Some a => 32 :: a end) ++ 10 :: rest') 2 = Some (2 + Z.of_nat k).
  { rewrite EI /pre -!app_assoc. cbn [app].
    have := skip_ok k 200 [35; 33] x (it ++ (match arg with None => [] | Some a => 32 :: a end) ++ 10 :: rest') X2 ltac:(lia).
    change (zlen [35; 33]) with 2. by []. }
  rewrite SK.
  have HX : znth 0 (pre ++ interp ++ (match arg with None => [] | Some a => 32 :: a end) ++ 10 :: rest') (2 + Z.of_nat k) = x.
  { rewrite -LP EI /znth /zlen Nat2Z.id app_nth2 // Nat.sub_diag //. }
  rewrite HX. have -> : (x =? 0) = false by lia.
  have SL := scan_line pre interp arg rest' (2 + Z.of_nat k) 200 N FI FA ltac:(by rewrite LP)
    ltac:(case: (arg) LL LA => [a |] LL LA; rewrite /zlen in LL; lia) ltac:(rewrite /hsize; lia).
  clearbody pre. rewrite SL. rewrite -/(ptrs argv n) (ptrs_cons argv n ltac:(lia)).
  have LT := ptrs_len (fun i => argv (i + 1)) (n - 1) ltac:(lia).
  have LX : zlen (extra arg) = match arg with None => 0 | Some _ => 1 end by case: (arg).
  rewrite LX in N2. rewrite /slots in R.
  set T := ptrs (fun i => argv (i + 1)) (n - 1) in LT |- *.
  have MW : forall l, zlen l <= 32 -> mem_write row 0 l = Some (l ++ skipn (length l) row).
  { move=> l L. rewrite /mem_write. by have -> : (0 <=? 0) && (0 + zlen l <=? zlen row) = true by lia. }
  clear E AS. case: arg FA LL LN EL SK HX SL LA LX N2 => [a |] FA LL LN EL SK HX SL LA LX N2.
  - rewrite MW; first by rewrite !zlen_app !zlen_cons LT; change (zlen (@nil Z)) with 0; lia.
    set S := skipn _ row.
    have -> : (([hb + (2 + Z.of_nat k); hb + (2 + Z.of_nat k + zlen interp + 1)] ++ (argv 0 :: T) ++ [0]) ++ S) =
      [hb + (2 + Z.of_nat k); hb + (2 + Z.of_nat k + zlen interp + 1)] ++ argv 0 :: (T ++ 0 :: S) by cbn [app]; rewrite -app_assoc.
    rewrite asetp //. eexists _, (2 + Z.of_nat k), (2 + Z.of_nat k + zlen interp + 1), S.
    split; first reflexivity. rewrite /hsize. have La := zlen_nonneg a. do 2 (split; first lia). split.
    + rewrite (skip_head pre _ _ (eq_sym LP)). apply: cstr_app. refine (Forall_impl _ _ FI) => b [? _]. done.
    + move=> a' [<-].
      have -> : pre ++ interp ++ 0 :: a ++ 0 :: rest' = (pre ++ interp ++ [0]) ++ a ++ 0 :: rest' by rewrite -!app_assoc.
      rewrite (skip_head (pre ++ interp ++ [0]) _ (2 + Z.of_nat k + zlen interp + 1) ltac:(rewrite zlen_app LP zlen_app; change (zlen [0]) with 1; lia)).
      apply: cstr_app. refine (Forall_impl _ _ (FA a eq_refl)) => b [? _]. done.
  - rewrite MW; first by rewrite !zlen_app !zlen_cons LT; change (zlen (@nil Z)) with 0; lia.
    set S := skipn _ row.
    have -> : (([hb + (2 + Z.of_nat k)] ++ (argv 0 :: T) ++ [0]) ++ S) =
      [hb + (2 + Z.of_nat k)] ++ argv 0 :: (T ++ 0 :: S) by cbn [app]; rewrite -app_assoc.
    rewrite asetp //. eexists _, (2 + Z.of_nat k), 0, S.
    split; first reflexivity. rewrite /hsize. do 2 (split; first lia). split; last done.
    rewrite (skip_head pre _ _ (eq_sym LP)). apply: cstr_app. refine (Forall_impl _ _ FI) => b [? _]. done.
Qed.

Lemma script_many hb h row path argv : zlen h = hsize -> (forall i, 0 <= i <= 30 -> argv i <> 0) ->
  handle_script hb h row path argv = SErr E2BIG.
Proof.
  move=> H P. rewrite /handle_script.
  have [p [x [s [E L]]]] := list_split_at h (hsize - 1) ltac:(rewrite H /hsize; lia).
  rewrite E asetp //. by rewrite (nargs_many argv 40 P 0 ltac:(lia)).
Qed.

Lemma script_magic h interp arg : script h interp arg -> znth 0 h 0 = 35 /\ znth 0 h 1 = 33.
Proof. move=> [k [rest [-> _]]]. by rewrite /line -!app_assoc. Qed.

(** Pointers and strings *)
Lemma points_ptrs sm argv strs : points sm argv strs -> map sm (ptrs argv (zlen strs)) = strs.
Proof.
  elim: strs argv => [| s strs IH] argv [P Z0] //. rewrite zlen_cons in P Z0 |- *. have L := zlen_nonneg strs.
  rewrite (ptrs_cons argv (1 + zlen strs) ltac:(lia)). cbn [map]. f_equal; first by have [_ ->] := P 0 ltac:(lia).
  have -> : 1 + zlen strs - 1 = zlen strs by lia. apply: IH. split.
  - move=> i I. have [P1 P2] := P (i + 1) ltac:(lia). split => //. rewrite P2 /znth.
    by have -> : Z.to_nat (i + 1) = S (Z.to_nat i) by lia.
  - by rewrite Z.add_comm.
Qed.

Lemma arg_ptrs_ok n : forall fuel argv i, (n <= fuel)%nat -> (forall j, i <= j < i + Z.of_nat n -> argv j <> 0) ->
  ((n < fuel)%nat -> argv (i + Z.of_nat n) = 0) -> arg_ptrs fuel argv i = map (fun k => argv (i + Z.of_nat k)) (seq 0 n).
Proof.
  elim: n => [| n IH] [| fuel] argv i F P Z0 //; try lia; cbn [arg_ptrs].
  - have := Z0 ltac:(lia). change (Z.of_nat 0) with 0. rewrite Z.add_0_r => ->. by rewrite Z.eqb_refl.
  - have := P i ltac:(lia). case: (Z.eqb_spec (argv i) 0) => // _ _. cbn [seq map]. f_equal; first by f_equal; lia.
    rewrite IH; [lia | move=> j J; apply: P; lia | | ].
    + move=> L. rewrite -(Z0 ltac:(lia)). f_equal. lia.
    + rewrite -seq_shift map_map. apply: map_ext => j. f_equal. lia.
Qed.
Lemma arg_ptrs_all argv n : 0 <= n <= 32 -> (forall j, 0 <= j < n -> argv j <> 0) -> argv n = 0 ->
  arg_ptrs 33 argv 0 = ptrs argv n.
Proof.
  move=> N P Z0. rewrite (arg_ptrs_ok (Z.to_nat n)); [lia | move=> j J; apply: P; lia | |].
  - move=> _. rewrite -Z0. f_equal. lia.
  - apply: map_ext => k. by rewrite Z.add_0_l.
Qed.

(** Pointers that avoid the headers of the levels still to come *)
Definition avoids (hb : Z -> Z) (lvl p : Z) : Prop := forall l, lvl <= l < 2 -> p < hb l \/ hb l + hsize <= p.

Lemma points_of sm argv (ps : list Z) strs : zlen ps = zlen strs ->
  (forall i, 0 <= i < zlen ps -> argv i = znth 0 ps i) -> argv (zlen ps) = 0 ->
  Forall2 (fun p s => p <> 0 /\ sm p = s) ps strs -> points sm argv strs.
Proof.
  move=> L A Z0 F. split; last by rewrite -L. move=> i I. rewrite A; first by rewrite L.
  clear L A Z0. elim: F i I => [| p s ps' strs' [P E] F IH] i I; first by change (zlen (@nil (list Z))) with 0 in I; lia.
  rewrite zlen_cons in I. case: (Z.eq_dec i 0) => [-> | D]; first done.
  have E' : Z.to_nat i = S (Z.to_nat (i - 1)) by lia.
  rewrite /znth E'. cbn [nth]. apply: (IH (i - 1)). lia.
Qed.
Lemma points_F2 sm argv strs : points sm argv strs ->
  Forall2 (fun p s => p <> 0 /\ sm p = s) (ptrs argv (zlen strs)) strs.
Proof.
  elim: strs argv => [| s strs IH] argv [P Z0]; first constructor. rewrite zlen_cons in P Z0 |- *. have L := zlen_nonneg strs.
  rewrite (ptrs_cons argv (1 + zlen strs) ltac:(lia)). constructor; first by have [? ->] := P 0 ltac:(lia).
  have -> : 1 + zlen strs - 1 = zlen strs by lia. apply: IH. split.
  - move=> i I. have [P1 P2] := P (i + 1) ltac:(lia). split => //. rewrite P2 /znth.
    by have -> : Z.to_nat (i + 1) = S (Z.to_nat i) by lia.
  - by rewrite Z.add_comm.
Qed.
Lemma ptrs_in argv n p : In p (ptrs argv n) -> exists i, 0 <= i < n /\ p = argv i.
Proof. rewrite /ptrs => /in_map_iff [k [<- /in_seq K]]. exists (Z.of_nat k). split; [lia | done]. Qed.

(** One script: the world after it *)
Lemma step hb rows lvl sm path argv h interp arg a0 strs p h' row :
  0 <= lvl < 2 -> (lvl = 0 -> hb 0 + hsize <= hb 1 \/ hb 1 + hsize <= hb 0) -> 0 < hb lvl -> zlen (rows lvl) = slots ->
  script h interp arg -> zlen strs + zlen (extra arg) <= 29 -> points sm argv (a0 :: strs) -> sm path = p -> path <> 0 ->
  avoids hb lvl path -> (forall i, 0 <= i <= zlen strs -> avoids hb lvl (argv i)) ->
  let sm' q := if (hb lvl <=? q) && (q <? hb lvl + hsize) then cstr (skipn (Z.to_nat (q - hb lvl)) h') else sm q in
  let argv' i := if i <? slots then znth 0 row i else znth 0 (rows (lvl + 1)) (i - slots) in
  handle_script (hb lvl) h (rows lvl) path argv = SRun h' row ->
  sm' (znth 0 row 0) = interp /\ znth 0 row 0 <> 0 /\ avoids hb (lvl + 1) (znth 0 row 0) /\
  points sm' argv' (interp :: extra arg ++ p :: strs) /\
  forall i, 0 <= i < zlen (interp :: extra arg ++ p :: strs) -> avoids hb (lvl + 1) (argv' i).
Proof.
  move=> L D H R SC N PT SP P0 AP AA sm' argv' HS.
  have LS := zlen_nonneg strs. have LX := zlen_nonneg (extra arg).
  have [PT1 PT2] := PT. rewrite zlen_cons in PT1 PT2.
  have [h2 [hd [la [junk [E [HD [LA [C1 C2]]]]]]]] := script_ok (hb lvl) h (rows lvl) path argv (1 + zlen strs) interp arg SC R
    ltac:(lia) ltac:(lia) (fun i I => proj1 (PT1 i I)) PT2.
  rewrite HS in E. move: E => [E1 ER0]. subst h2.
  have EN : 1 + zlen strs - 1 = zlen strs by lia.
  set T := ptrs (fun i => argv (i + 1)) (1 + zlen strs - 1) in ER0.
  have LT : zlen T = zlen strs by rewrite /T ptrs_len; lia.
  set X := match arg with None => [] | Some _ => [hb lvl + la] end in ER0.
  have LXX : zlen X = zlen (extra arg) by rewrite /X; case: (arg).
  have ST : forall q, avoids hb lvl q -> sm' q = sm q.
  { move=> q Q. rewrite /sm'. have := Q lvl ltac:(lia).
    case: (Z.leb_spec (hb lvl) q) => // ?. case: (Z.ltb_spec q (hb lvl + hsize)) => // ?. lia. }
  have SI : forall o, 0 <= o < hsize -> sm' (hb lvl + o) = cstr (skipn (Z.to_nat o) h').
  { move=> o HO. rewrite /sm'. have -> : (hb lvl <=? hb lvl + o) && (hb lvl + o <? hb lvl + hsize) = true by lia.
    by have -> : hb lvl + o - hb lvl = o by lia. }
  have AI : forall o, 0 <= o < hsize -> avoids hb (lvl + 1) (hb lvl + o).
  { move=> o HO l HL. have [L0 L1] : lvl = 0 /\ l = 1 by lia. subst lvl l. have := D eq_refl. lia. }
  have AS : forall q, avoids hb lvl q -> avoids hb (lvl + 1) q by move=> q Q l HL; apply: Q; lia.
  have FT : Forall2 (fun p s => p <> 0 /\ sm' p = s) T strs.
  { have PS : points sm (fun i => argv (i + 1)) strs.
    { split; last by rewrite Z.add_comm. move=> i I. have [P1 P2] := PT1 (i + 1) ltac:(lia). split => //. rewrite P2 /znth.
      by have -> : Z.to_nat (i + 1) = S (Z.to_nat i) by lia. }
    have F := points_F2 _ _ _ PS. rewrite -EN -/T in F.
    have AT : Forall (avoids hb lvl) T.
    { apply Forall_forall => q /ptrs_in [i [I ->]]. apply: AA. lia. }
    clearbody T. clear - F AT ST. elim: F AT => [| q s qs ss [Q E] F IH] AT; constructor; inversion AT; subst; last exact: IH.
    split => //. exact: ST. }
  have FX : Forall2 (fun p s => p <> 0 /\ sm' p = s) X (extra arg).
  { rewrite /X. case: (arg) C2 => [a |] C2 /=; constructor; last constructor. split; first lia. rewrite SI //. exact: C2. }
  set ps := (hb lvl + hd) :: X ++ path :: T.
  have ER : row = ps ++ 0 :: junk by rewrite ER0 /ps /= -app_assoc.
  have LPS : zlen ps = zlen (interp :: extra arg ++ p :: strs) by rewrite /ps !zlen_cons !zlen_app !zlen_cons LXX LT.
  have LB : zlen ps <= 31 by rewrite /ps zlen_cons zlen_app zlen_cons; lia.
  have FP : Forall2 (fun p s => p <> 0 /\ sm' p = s) ps (interp :: extra arg ++ p :: strs).
  { constructor; first by split; [lia | rewrite SI].
    apply: Forall2_app => //. constructor => //. split => //. by rewrite ST. }
  have AV : Forall (avoids hb (lvl + 1)) ps.
  { constructor; first exact: AI. apply/Forall_app; split.
    - rewrite /X. case: (arg); constructor; last constructor. exact: AI.
    - constructor; first exact: AS. apply Forall_forall => q /ptrs_in [i [I ->]]. apply: AS. apply: AA. lia. }
  have R0 : znth 0 row 0 = hb lvl + hd by rewrite ER.
  have A1 : forall i, 0 <= i < zlen ps -> argv' i = znth 0 ps i.
  { move=> i I. rewrite /argv' /slots. have -> : (i <? 32) = true by lia.
    rewrite ER /znth app_nth1 //. rewrite /zlen in I. lia. }
  have A2 : argv' (zlen ps) = 0.
  { rewrite /argv' /slots. have -> : (zlen ps <? 32) = true by lia.
    by rewrite ER /znth /zlen Nat2Z.id app_nth2 // Nat.sub_diag. }
  split; first by rewrite R0 SI. split; first by rewrite R0; lia. split; first by rewrite R0; exact: AI.
  split; first exact: (points_of _ _ ps).
  rewrite -LPS => i I. rewrite A1 //. move/Forall_forall: AV; apply. apply: nth_In. clearbody ps. clear - I. rewrite /zlen in I. lia.
Qed.

Lemma step_runs (hb : Z -> Z) row (lvl : Z) path argv h interp arg (a0 : list Z) strs sm : zlen row = slots ->
  script h interp arg -> zlen strs + zlen (extra arg) <= 29 -> points sm argv (a0 :: strs) ->
  exists h' row', handle_script (hb lvl) h row path argv = SRun h' row'.
Proof.
  move=> R SC N [PT1 PT2]. rewrite zlen_cons in PT1 PT2. have LS := zlen_nonneg strs.
  have [h2 [hd [la [junk [E _]]]]] := script_ok (hb lvl) h row path argv (1 + zlen strs) interp arg SC R
    ltac:(lia) ltac:(lia) (fun i I => proj1 (PT1 i I)) PT2.
  exists h2. eexists. exact: E.
Qed.

Lemma run_int load hb rows n p strs q strs' : starts load n p strs q strs' -> forall lvl sm path argv,
  0 <= lvl -> lvl + Z.of_nat n = 2 -> hb 0 + hsize <= hb 1 \/ hb 1 + hsize <= hb 0 ->
  (forall l, 0 <= l < 2 -> 0 < hb l /\ zlen (rows l) = slots) ->
  points sm argv strs -> sm path = p -> path <> 0 -> avoids hb lvl path ->
  (forall i, 0 <= i < zlen strs -> avoids hb lvl (argv i)) ->
  exec_int n load hb rows lvl sm path argv = XRun q strs'.
Proof.
  elim=> {n p strs q strs'} [n p strs LD N | n p a0 strs h interp arg q strs' LD SC N _ IH] lvl sm path argv L LN D HR PT SP P0 AP AA.
  - have -> : exec_int n load hb rows lvl sm path argv =
      let ps := arg_ptrs 33 argv 0 in if 32 <? zlen ps then XErr E2BIG else XRun (sm path) (map sm ps).
    { case: (n); cbn [exec_int]; by rewrite SP LD. }
    have [P1 P2] := PT. have LS := zlen_nonneg strs.
    rewrite (arg_ptrs_all argv (zlen strs) ltac:(lia) (fun i I => proj1 (P1 i I)) P2). cbn zeta.
    rewrite ptrs_len //. have -> : (32 <? zlen strs) = false by lia. by rewrite SP points_ptrs.
  - cbn [exec_int]. rewrite SP LD Z.eqb_refl. have [-> ->] := script_magic h interp arg SC. cbn [andb Z.eqb Pos.eqb].
    have [H R] := HR lvl ltac:(lia).
    have [h' [row HS]] := step_runs hb (rows lvl) lvl path argv h interp arg a0 strs sm R SC N PT. rewrite HS.
    rewrite zlen_cons in AA.
    have [S1 [S2 [S3 [S4 S5]]]] := step hb rows lvl sm path argv h interp arg a0 strs p h' row ltac:(lia) (fun _ => D) H R SC N PT SP P0 AP
      ltac:(move=> i I; apply: AA; lia) HS.
    apply: IH => //; lia.
Qed.

Lemma deep_int load hb rows n p strs : deep load n p strs -> forall lvl sm path argv,
  0 <= lvl -> lvl + Z.of_nat n = 2 -> hb 0 + hsize <= hb 1 \/ hb 1 + hsize <= hb 0 ->
  (forall l, 0 <= l < 2 -> 0 < hb l /\ zlen (rows l) = slots) ->
  points sm argv strs -> sm path = p -> path <> 0 -> avoids hb lvl path ->
  (forall i, 0 <= i < zlen strs -> avoids hb lvl (argv i)) ->
  exec_int n load hb rows lvl sm path argv = XErr ELOOP.
Proof.
  elim=> {n p strs} [p strs h interp arg LD SC | n p a0 strs h interp arg LD SC N _ IH] lvl sm path argv L LN D HR PT SP P0 AP AA.
  - cbn [exec_int]. rewrite SP LD Z.eqb_refl. by have [-> ->] := script_magic h interp arg SC.
  - cbn [exec_int]. rewrite SP LD Z.eqb_refl. have [-> ->] := script_magic h interp arg SC. cbn [andb Z.eqb Pos.eqb].
    have [H R] := HR lvl ltac:(lia).
    have [h' [row HS]] := step_runs hb (rows lvl) lvl path argv h interp arg a0 strs sm R SC N PT. rewrite HS.
    rewrite zlen_cons in AA.
    have [S1 [S2 [S3 [S4 S5]]]] := step hb rows lvl sm path argv h interp arg a0 strs p h' row ltac:(lia) (fun _ => D) H R SC N PT SP P0 AP
      ltac:(move=> i I; apply: AA; lia) HS.
    apply: IH => //; lia.
Qed.

(** The buffers of one execve: two headers apart from each other, two rows of 32 pointers *)
Lemma exec_runs load hb rows sm path argv p strs q strs' : buffers hb rows -> starts load 2 p strs q strs' ->
  points sm argv strs -> sm path = p -> path <> 0 -> outside hb path ->
  (forall i, 0 <= i < zlen strs -> outside hb (argv i)) ->
  exec load hb rows 0 sm path argv = XRun q strs'.
Proof. move=> [D HR] ST PT SP P0 AP AA. exact: (run_int load hb rows 2 p strs q strs' ST 0). Qed.
Lemma exec_deep load hb rows sm path argv p strs : buffers hb rows -> deep load 2 p strs ->
  points sm argv strs -> sm path = p -> path <> 0 -> outside hb path ->
  (forall i, 0 <= i < zlen strs -> outside hb (argv i)) ->
  exec load hb rows 0 sm path argv = XErr ELOOP.
Proof. move=> [D HR] ST PT SP P0 AP AA. exact: (deep_int load hb rows 2 p strs ST 0). Qed.

(** No header, no script: the error of the loader *)
Lemma exec_err load hb rows sm path argv rc h : load (sm path) = LErr rc h ->
  rc <> ENOEXEC \/ znth 0 h 0 <> 35 \/ znth 0 h 1 <> 33 -> exec load hb rows 0 sm path argv = XErr rc.
Proof. move=> E D. rewrite /exec. cbn [exec_int]. rewrite E. have -> : (rc =? ENOEXEC) && (znth 0 h 0 =? 35) && (znth 0 h 1 =? 33) = false by lia. by []. Qed.
