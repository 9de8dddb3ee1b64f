(** Proofs: the errors of scripts. *)
From Verif Require Import Lib Exec_Model Exec_Spec Exec_Proofs3.
From Coq Require Import ssreflect.

Lemma nargs_some argv fuel n : forall i, 0 <= i <= n -> n <= 30 -> argv n = 0 -> (Z.to_nat (n - i) < fuel)%nat -> exists k, nargs argv fuel i = Some k.
Proof.
  elim: fuel => [|fuel IH] i Hi Hn Z0 F; first lia. cbn [nargs]. destruct (Z.eqb_spec (argv i) 0) as [E|E]; first by exists i. have Ni : i <> n by congruence.
  have -> : slots - 2 <=? i = false by rewrite /slots; lia. apply: IH => //; lia.
Qed.
Lemma script_errs hb h row path argv rc n : 0 <= n <= 30 -> argv n = 0 -> handle_script hb h row path argv = SErr rc -> rc = ENOEXEC.
Proof.
  move => Hn Z0. rewrite /handle_script. have [k ->] := nargs_some argv 40 n 0 ltac:(lia) ltac:(lia) Z0 ltac:(lia).
  case: (aset h (hsize - 1) 0) => // h1. case: (skip_sp 200 h1 2) => // hd. case: (_ =? 0); first by case. case: (scan 200 h1 hd hd None) => // [|h2 l]; first by case.
  case: (mem_write _ _ _) => // r. by case: (aset r _ _).
Qed.
Lemma script_blank hb k rest row path argv n : 0 <= n <= 30 -> argv n = 0 -> 2 + Z.of_nat k + 1 + zlen rest = hsize ->
  handle_script hb ([35; 33] ++ repeat 32 k ++ 0 :: rest) row path argv = SErr ENOEXEC.
Proof.
  move => Hn Z0 L. rewrite /handle_script. have [j ->] := nargs_some argv 40 n 0 ltac:(lia) ltac:(lia) Z0 ltac:(lia). have Nr := zlen_nonneg rest. rewrite /hsize in L |- *.
  have [rest' E] : exists rest', aset ([35; 33] ++ repeat 32 k ++ 0 :: rest) (128 - 1) 0 = Some ([35; 33] ++ repeat 32 k ++ 0 :: rest').
  { rewrite app_assoc. have Lp : zlen ([35; 33] ++ repeat 32 k) = 2 + Z.of_nat k by rewrite zlen_app /zlen repeat_length.
    case: (list_eq_dec Z.eq_dec rest []) => [Er|Ne].
    - exists []. rewrite Er asetp //. rewrite Lp. rewrite Er zlen_nil in L. lia.
    - have [x Er] := exists_last Ne. move: Er => [y Er]. exists (x ++ [0]). rewrite Er. have -> : ([35; 33] ++ repeat 32 k) ++ 0 :: x ++ [y] = (([35; 33] ++ repeat 32 k) ++ 0 :: x) ++ [y] by rewrite -!app_assoc.
      rewrite asetp; first by rewrite zlen_app Lp zlen_cons; rewrite Er zlen_app in L; have : zlen [y] = 1 by []; lia. by rewrite -!app_assoc. }
  rewrite E. have := skip_ok k 200 [35; 33] 0 rest' ltac:(lia) ltac:(lia). change (zlen [35; 33]) with 2. cbn [app] => ->.
  have -> : znth 0 (35 :: 33 :: repeat 32 k ++ 0 :: rest') (2 + Z.of_nat k) = 0; last by [].
  have -> : 35 :: 33 :: repeat 32 k ++ 0 :: rest' = ([35; 33] ++ repeat 32 k) ++ 0 :: rest' by rewrite -app_assoc. rewrite znth_app2 zlen_app /zlen repeat_length /=; first lia. by have -> : 2 + Z.of_nat k - (Z.of_nat 2 + Z.of_nat k) = 0 by lia.
Qed.
