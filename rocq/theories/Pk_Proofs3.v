(** Proofs: one step. *)
From Coq Require Import Permutation.
From Verif Require Import Lib Pk_Model Pk_Spec Pk_Proofs Pk_Proofs2.
From Coq Require Import ssreflect.

Definition II (n : Z) (s : st) : Prop := exists rd al m bl, I n s rd al m bl.
Lemma perm_mid {A} (a b c d e : list A) : Permutation (a ++ b ++ c ++ d) e -> Permutation (a ++ (b ++ c) ++ d) e.
Proof. by rewrite -app_assoc. Qed.
Lemma perm_dir {A} (a b : list A) p ps d e : Permutation (a ++ b ++ (p :: ps) ++ d) e -> Permutation ((a ++ [p]) ++ b ++ ps ++ d) e.
Proof. move => H. apply: Permutation_trans H. rewrite -app_assoc. apply: Permutation_app_head. cbn. apply: Permutation_middle. Qed.
Lemma firstn_add {A} (l : list A) a b : firstn a l ++ firstn b (skipn a l) = firstn (a + b) l.
Proof. elim: a l => [|a IH] [|x l] //=; [by rewrite firstn_nil|by rewrite IH]. Qed.
Lemma region_app n L p rd f b : 0 <= rd -> region n L rd f b -> region n (L ++ p) rd f b.
Proof.
  move => Hr. rewrite /region. case: (at_ f) => // pos i q ps [A [B [C D]]]. split => //. split => //. split; first by rewrite zlen_app; have := zlen_nonneg p; lia.
  move => j Hj. rewrite znth_app1; [lia|by apply: D].
Qed.
Lemma run_idle n s rd bl : 0 < n -> I n s rd [] None bl -> exists s', run s = Some s' /\ II n s'.
Proof.
  move => Hn H. move: (H) => [Hj Hp Hs Hb Hr Hro Hrp Hwp Ha Hri Ho Hd]. have [s' [Er Js]] := run_J n s Hn Hj. exists s'. split => //. inversion Hs as [? F Es Erd|]; subst.
  move: Er. rewrite /run. case Es' : (stack s) Hb => [|f t] Hb. { case => <-. rewrite /II. exists (zlen (concat (logged s))), [], None, (stack s). exact H. }
  inversion Hb as [|? ? Ef Et]; subst. case Ea : (at_ f) (Ef) => [c| | | | | ]; rewrite /early Ea // => _. case => E. subst s'. rewrite F in Js |- *.
  exists (zlen (concat (logged s))), [], (Some (Frame (irq f) (Got false (filter nonempty ((if nl s then [pre c] else []) ++ [body c])) (bsz c)))), t.
  constructor => //=; first by constructor => //=.
  rewrite Es' /= in Hd. rewrite (early_left _ Et) /left_ Ea !app_nil_r in Hd. rewrite (early_left _ Et) app_nil_r. rewrite app_assoc. by apply: Permutation_app_tail.
Qed.
Lemma run_boss n s rd m bl : 0 < n -> I n s rd [] (Some m) bl -> exists s', run s = Some s' /\ II n s'.
Proof.
  move => Hn H. move: (H) => [Hj Hp Hs Hb Hr Hro Hrp Hwp Ha Hri Ho Hd]. have [s' [Er Js]] := run_J n s Hn Hj. exists s'. split => //. inversion Hs as [|? ? ? F Es Bm _]; subst. cbn in Es.
  have U := used_I _ _ _ _ _ _ Hn H. have [_ Ub] := used_eq n s Hj. have Gm : good m by move: (j_s _ _ Hj); rewrite Es => X; inversion X.
  move: Er. rewrite /run Es. rewrite Es /= in Hd. case Ea : (at_ m) Bm Gm => [c|old ps b|ps b|c b|ps|pos i p ps]; rewrite /boss /good Ea // => Bm Gm.
  - case: old Ea Bm => // Ea _. case => E. subst s'. exists rd, [], (Some (Frame (irq m) (First ps b))), bl. constructor => //=; first by constructor.
    + move: Ho. by rewrite /pend Ea.
    + move: Hd. by rewrite {1}/left_ Ea.
  - case: ps Ea Gm => [|p ps] Ea [G1 G2].
    + destruct (Z.eqb_spec (Z.min b (used s)) 0) as [E0|E0].
      * case => E. subst s'. exists rd, [], None, bl. constructor => //=; first by constructor => //=; lia.
        -- move: Ho. by rewrite /pend Ea.
        -- move: Hd. by rewrite {1}/left_ Ea.
      * set k := Z.min b (used s) in E0 *. have Kk : 0 <= k <= used s by lia. rewrite (read_ok _ _ _ _ _ _ k Hn H eq_refl Kk). case => E. subst s'.
        exists (rd + k), [], (Some (Frame (irq m) (Out (firstn (Z.to_nat k) (skipn (Z.to_nat rd) (concat (logged s)))) b))), bl. constructor => //=; try lia.
        -- by constructor.
        -- rewrite Hrp /N (j_n _ _ Hj). by rewrite Zplus_mod_idemp_l.
        -- move => a Hx. apply: Hri. lia.
        -- move: Ho. rewrite /pend Ea /= app_nil_r => ->. have -> : Z.to_nat (rd + k) = (Z.to_nat rd + Z.to_nat k)%nat by lia. 
           by rewrite firstn_add.
        -- move: Hd. by rewrite {1}/left_ Ea.
    + case => E. subst s'. exists rd, [], (Some (Frame (irq m) (First ps b))), bl. constructor => //=; first by constructor.
      * move: Ho. by rewrite from_app /pend Ea /= !app_nil_r.
      * rewrite direct_app. apply: perm_dir. move: Hd. by rewrite {1}/left_ Ea.
  - case => E. subst s'. exists rd, [], (Some (Frame (irq m) (First [] b))), bl. constructor => //=; first by constructor.
    + move: Ho. by rewrite from_app /pend Ea /= app_nil_r.
    + rewrite direct_app app_nil_r. move: Hd. by rewrite {1}/left_ Ea.
Qed.
