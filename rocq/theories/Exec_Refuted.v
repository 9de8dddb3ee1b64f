(** Three ways in which execve_handle_script goes wrong, each for every script of its kind. *)
From Coq Require Import ssreflect.
From Verif Require Import Lib User_Model User_Spec Exec_Model Exec_Spec Exec_Proofs2 Exec_Proofs3.

(** The header up to the call of [scan] *)
Lemma scan_at h interp arg argv hb row path n : script h interp arg -> nargs argv 40 0 = Some n ->
  exists hd h', 0 <= hd < hsize /\ hd + zlen interp + 1 < hsize /\ zlen h' = hsize /\
  handle_script hb h row path argv =
    let pre := match arg with None => [hb + hd] | Some _ => [hb + hd; hb + (hd + zlen interp + 1)] end in
    match mem_write row 0 (pre ++ map (fun i => argv (Z.of_nat i)) (seq 0 (Z.to_nat n)) ++ [0]) with
    | None => SOob
    | Some row => match aset row (match arg with None => 1 | Some _ => 2 end) path with None => SOob | Some row => SRun h' row end
    end.
Proof.
  move=> [k [rest [E [H [LL [N [FI FA]]]]]]] NA.
  have [rest' [AS LR]] := sentinel (line k interp arg) rest ltac:(by rewrite -E) LL.
  have HL : zlen (line k interp arg) + zlen rest' = hsize by rewrite LR -H E zlen_app.
  rewrite E /handle_script AS NA.
  set pre := [35; 33] ++ repeat 32 k.
  have LK : zlen (repeat 32 k) = Z.of_nat k by rewrite /zlen repeat_length.
  have LP : zlen pre = 2 + Z.of_nat k by rewrite /pre zlen_app LK.
  have EL : line k interp arg ++ rest' = pre ++ interp ++ (match arg with None => [] | Some a => 32 :: a end) ++ 10 :: rest'.
  { rewrite /line /pre -!app_assoc. by []. }
  have LN : zlen (line k interp arg) = 3 + Z.of_nat k + zlen interp + match arg with None => 0 | Some a => 1 + zlen a end.
  { rewrite /line !zlen_app LK. change (zlen [10]) with 1. change (zlen [35; 33]) with 2.
    case: (arg) => [a |]; rewrite ?zlen_cons; change (zlen (@nil Z)) with 0; lia. }
  rewrite EL. have LI := zlen_nonneg interp. rewrite LN /hsize in LL.
  have LA : 0 <= match arg with None => 0 | Some a => 1 + zlen a end by case: (arg) => [a |]; have := zlen_nonneg (A:=Z); [move=> /(_ a); lia | lia].
  have [x [it EI]] : exists x it, interp = x :: it by case: (interp) N => [| x it] // _; exists x, it.
  have [X0 [X1 X2]] : wordc x by rewrite EI in FI; inversion FI.
  have SK : skip_sp 200 (pre ++ interp ++ (match arg with None => [] | Some a => 32 :: a end) ++ 10 :: rest') 2 = Some (2 + Z.of_nat k).
  { rewrite EI /pre -!app_assoc. cbn [app].
    have := skip_ok k 200 [35; 33] x (it ++ (match arg with None => [] | Some a => 32 :: a end) ++ 10 :: rest') X2 ltac:(lia).
    change (zlen [35; 33]) with 2. by []. }
  rewrite SK.
  have HX : znth 0 (pre ++ interp ++ (match arg with None => [] | Some a => 32 :: a end) ++ 10 :: rest') (2 + Z.of_nat k) = x.
  { rewrite -LP EI /znth /zlen Nat2Z.id app_nth2 // Nat.sub_diag //. }
  rewrite HX. have -> : (x =? 0) = false by lia.
  have SL := scan_line pre interp arg rest' (2 + Z.of_nat k) 200 N FI FA ltac:(by rewrite LP)
    ltac:(case: (arg) LL LA => [a |] LL LA; rewrite /zlen in LL; lia) ltac:(rewrite /hsize; lia).
  clearbody pre. rewrite SL. exists (2 + Z.of_nat k).
  exists (match arg with None => pre ++ interp ++ 0 :: rest' | Some a => pre ++ interp ++ 0 :: a ++ 0 :: rest' end).
  rewrite /hsize in HL |- *. split; first lia. split; first lia. split.
  - clear E AS EL SK HX SL FA. case: (arg) LN HL => [a |] LN HL; rewrite !zlen_app zlen_cons ?zlen_app ?zlen_cons LP; lia.
  - clear. by case: arg.
Qed.

(** Called without any argument, not even argv[0]: the path overwrites the NULL, and the array goes
    on with what the row held before *)
Lemma no_args hb h row path argv interp arg : script h interp arg -> zlen row = slots -> argv 0 = 0 ->
  exists h' hd la, handle_script hb h row path argv =
    SRun h' ((hb + hd) :: (match arg with None => [] | Some _ => [hb + la] end) ++
             path :: skipn (match arg with None => 2 | Some _ => 3 end) row).
Proof.
  move=> SC R Z0. have NA : nargs argv 40 0 = Some 0 by cbn [nargs]; rewrite Z0.
  have [hd [h' [HD [HI [HL ->]]]]] := scan_at h interp arg argv hb row path 0 SC NA.
  exists h', hd, (hd + zlen interp + 1). cbn zeta. rewrite /slots in R. cbn [Z.to_nat seq map].
  rewrite app_nil_l.
  have MW : forall l, zlen l <= 32 -> mem_write row 0 l = Some (l ++ skipn (length l) row).
  { move=> l L. rewrite /mem_write. by have -> : (0 <=? 0) && (0 + zlen l <=? zlen row) = true by lia. }
  case: arg SC => [a |] SC; rewrite MW //; rewrite -app_assoc; change ([0] ++ ?l) with (0 :: l); by rewrite asetp.
Qed.

(** 30 arguments and an interpreter with an argument: a store behind the row *)
Lemma row_overflow hb h row path argv interp a : script h interp (Some a) -> zlen row = slots ->
  (forall i, 0 <= i < 30 -> argv i <> 0) -> argv 30 = 0 -> handle_script hb h row path argv = SOob.
Proof.
  move=> SC R P Z0. have NA := nargs_ok argv 30 40 0 ltac:(lia) ltac:(lia) ltac:(lia) P Z0.
  have [hd [h' [HD [HI [HL ->]]]]] := scan_at h interp (Some a) argv hb row path 30 SC NA. cbn zeta.
  have L := ptrs_len argv 30 ltac:(lia). rewrite -/(ptrs argv 30).
  rewrite /mem_write !zlen_app L R /slots. change (zlen [0]) with 1.
  change (zlen [hb + hd; hb + (hd + zlen interp + 1)]) with 2. by [].
Qed.

(** The first blank at byte 126: the scan steps over the terminator at byte 127 and out of the header *)
Lemma header_overrun hb k interp x row path argv n : interp <> [] ->
  Forall (fun b => b <> 0 /\ b <> 10 /\ b <> 32) interp ->
  2 + Z.of_nat k + zlen interp = 126 -> 0 <= n <= 30 -> (forall i, 0 <= i < n -> argv i <> 0) -> argv n = 0 ->
  handle_script hb ([35; 33] ++ repeat 32 k ++ interp ++ [32; x]) row path argv = SOob.
Proof.
  move=> N FI L NN P Z0. rewrite /handle_script.
  set pre := [35; 33] ++ repeat 32 k.
  have LK : zlen (repeat 32 k) = Z.of_nat k by rewrite /zlen repeat_length.
  have LP : zlen pre = 2 + Z.of_nat k by rewrite /pre zlen_app LK.
  have LI := zlen_nonneg interp.
  have -> : [35; 33] ++ repeat 32 k ++ interp ++ [32; x] = (pre ++ interp ++ [32]) ++ [x] by rewrite /pre -!app_assoc.
  have [y [it EI]] : exists y it, interp = y :: it by case: (interp) N => [| y it] // _; exists y, it.
  have [X0 [X1 X2]] : wordc y by rewrite EI in FI; inversion FI.
  have SK : skip_sp 200 ((pre ++ interp ++ [32]) ++ [0]) 2 = Some (2 + Z.of_nat k).
  { rewrite EI /pre -!app_assoc. cbn [app].
    have := skip_ok k 200 [35; 33] y (it ++ [32; 0]) X2 ltac:(lia). change (zlen [35; 33]) with 2. by []. }
  clearbody pre.
  have HX : znth 0 ((pre ++ interp ++ [32]) ++ [0]) (2 + Z.of_nat k) = y.
  { rewrite -!app_assoc -LP EI /znth /zlen Nat2Z.id app_nth2 // Nat.sub_diag //. }
  have LQ : hsize - 1 = zlen (pre ++ interp ++ [32]).
  { rewrite !zlen_app LP /hsize. change (zlen [32]) with 1. lia. }
  rewrite asetp // (nargs_ok argv n 40 0) //; [lia | lia | lia |]. rewrite SK HX. have -> : (y =? 0) = false by lia.
  rewrite -!app_assoc. cbn [app]. rewrite -LP scan_word //; [rewrite /zlen in LI L; lia | rewrite /hsize; lia |].
  have [f F] : exists f, (200 - length interp)%nat = S f by exists (199 - length interp)%nat; rewrite /zlen in L; lia. rewrite F.
  rewrite app_assoc. have -> : zlen pre + zlen interp = zlen (pre ++ interp) by rewrite zlen_app.
  rewrite scan_blank; first by rewrite zlen_app /hsize; lia. cbn [Z.eqb].
  case: f F => [| f] F //. cbn [scan].
  have -> : aget ((pre ++ interp) ++ [0; 0]) (zlen (pre ++ interp) + 2) = None.
  { rewrite /aget. have := zlen_nonneg (pre ++ interp). case: (Z.leb_spec 0 (zlen (pre ++ interp) + 2)) => // _ _.
    apply/nth_error_None. rewrite app_length /zlen. cbn [length]. lia. }
  by [].
Qed.
