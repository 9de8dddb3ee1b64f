(** Proofs: calls from interrupts; whole histories. *)
From Coq Require Import Permutation.
From Verif Require Import Lib Pk_Model Pk_Spec Pk_Proofs Pk_Proofs2 Pk_Proofs3.
From Coq Require Import ssreflect.

Lemma concat_snoc {A} (l : list (list A)) p : concat (l ++ [p]) = concat l ++ p.
Proof. by rewrite concat_app /= app_nil_r. Qed.
Lemma run_above n s rd f b al m bl : 0 < n -> I n s rd ((f, b) :: al) (Some m) bl -> exists s', run s = Some s' /\ II n s'.
Proof.
  move => Hn H. move: (H) => [Hj Hp Hs Hb Hr Hro Hrp Hwp Ha Hri Ho Hd]. have [s' [Er Js]] := run_J n s Hn Hj. exists s'. split => //. inversion Hs as [|? ? ? F Es Bm La]; subst. cbn in Es.
  have U := used_I _ _ _ _ _ _ Hn H. have [_ Ub] := used_eq n s Hj. have Gm : good f by move: (j_s _ _ Hj); rewrite Es => X; inversion X.
  inversion La as [|? ? Lf La']; subst. inversion Ha as [|? ? Rf Ra]; subst. cbn [fst snd] in Lf, Rf.
  have Keep : forall f', unc f b = (fun _ => False) -> forall a, rd <= a < zlen (concat (logged s)) -> znth 0 (ring s) (a mod n) = znth 0 (concat (logged s)) a \/ exists x, In x ((f', b) :: al) /\ unc (fst x) (snd x) a.
  { move => f' Nf a Hx. case: (Hri a Hx) => [E|[x [[E|Hi] Ux]]]; [by left| |right; exists x; split => //; by right]. subst x. cbn in Ux. by rewrite Nf in Ux. }
  move: Er. rewrite /run Es. rewrite Es /= in Hd. case Ea : (at_ f) Lf Gm => [c|old ps b'|ps b'|c b'|ps|pos i p ps]; rewrite /later /good Ea // => Lf Gm.
  - case => E. subst s'. rewrite F in Js |- *. exists rd, ((Frame (irq f) (Got true (filter nonempty ((if nl s then [pre c] else []) ++ [body c])) (bsz c)), b) :: al), (Some m), bl. constructor => //=.
    + constructor => //=. by constructor.
    + by constructor.
    + apply: Keep. by rewrite /unc Ea.
    + move: Hd. rewrite {1}/left_ Ea /= => Hd. apply: Permutation_trans (Permutation_app_tail _ Hd). rewrite -!app_assoc. apply: Permutation_app_head. apply: Permutation_app_head. apply: Permutation_app_comm.
  - case: old Ea Lf => // Ea _. case => E. subst s'. exists rd, ((Frame (irq f) (App ps), b) :: al), (Some m), bl. constructor => //=.
    + constructor => //=. by constructor.
    + by constructor.
    + apply: Keep. by rewrite /unc Ea.
    + move: Hd. by rewrite {1}/left_ Ea.
  - case: ps Ea Gm => [|p ps] Ea Gm.
    + case => E. subst s'. exists rd, al, (Some m), bl. constructor => //=; first by constructor.
      * move => a Hx. case: (Hri a Hx) => [E|[x [[E|Hi] Ux]]]; [by left| |right; by exists x]. subst x. move: Ux. by rewrite /unc /= Ea.
      * move: Hd. by rewrite {1}/left_ Ea.
    + inversion Gm; subst. have Lp := len_pos p ltac:(done). destruct (Z.leb_spec (N s) (used s + zlen p)) as [A|A].
      * case => E. subst s'. exists rd, ((Frame (irq f) (App ps), b) :: al), (Some m), bl. constructor => //=.
        -- constructor => //=. by constructor.
        -- by constructor.
        -- apply: Keep. by rewrite /unc Ea.
        -- by rewrite from_app app_nil_r.
        -- rewrite direct_app. apply: perm_dir. move: Hd. by rewrite {1}/left_ Ea.
      * rewrite /N (j_n _ _ Hj) in A |- *. case => E. subst s'. set L := concat (logged s) in Hr Hro Hwp Ha Hri Ho Rf Ra U *.
        exists rd, ((Frame (irq f) (Copy (wp s) 0 p ps), zlen L) :: al), (Some m), bl. constructor => //=; rewrite ?concat_snoc -/L ?zlen_app; try lia.
        -- constructor => //=. by constructor.
        -- by rewrite Hwp Zplus_mod_idemp_l.
        -- constructor.
           ++ cbn. rewrite zlen_app. split => //. split; first lia. split; first lia. move => j Hjj. rewrite znth_app2; first lia. f_equal. lia.
           ++ apply: Forall_impl Ra => x. apply: region_app. lia.
        -- move => a Hx. destruct (Z.ltb_spec a (zlen L)) as [X|X]; last by right; eexists; split; [by left|cbn; lia].
           case: (Keep f ltac:(by rewrite /unc Ea) a (conj (proj1 Hx) X)) => [E|[x [[E|Hi] Ux]]]; [left; by rewrite znth_app1; [lia|]| |right; exists x; split => //; by right].
           subst x. move: Ux. by rewrite /unc /= Ea.
        -- rewrite Ho firstn_app. have -> : (Z.to_nat rd - length L)%nat = O by rewrite /zlen in Hr; lia. by rewrite firstn_O app_nil_r.
        -- move: Hd. rewrite {1}/left_ Ea. by rewrite -!app_assoc.
  - move: Gm => [G1 G2]. rewrite /region Ea in Rf. move: Rf => [R1 [R2 [R3 R4]]]. destruct (Z.ltb_spec i (zlen p)) as [A|A].
    + have Em : (pos + i) mod N s = (b + i) mod n by rewrite R1 /N (j_n _ _ Hj) Zplus_mod_idemp_l.
      have [r [Eas [Lr Zr]]] := aset_some (ring s) ((pos + i) mod N s) (znth 0 p i) ltac:(rewrite Em (j_n _ _ Hj); apply: Z.mod_pos_bound; lia). rewrite Eas. case => E. subst s'.
      exists rd, ((Frame (irq f) (Copy pos (i + 1) p ps), b) :: al), (Some m), bl. constructor => //=.
      * constructor => //=. by constructor.
      * constructor => //. 
      * move => a Hx. have Pm := Z.mod_pos_bound a n ltac:(lia). rewrite Zr; first lia. rewrite Em. destruct (Z.eqb_spec (a mod n) ((b + i) mod n)) as [E|E].
        -- left. have -> : a = b + i by apply: (mod_inj n rd) => //; lia. rewrite R4 //. lia.
        -- case: (Hri a Hx) => [E'|[x [[E'|Hi] Ux]]]; [by left| |right; exists x; split => //; by right]. subst x. right. eexists. split; first by left. move: Ux. rewrite /unc /= Ea.
           have : a <> b + i by move => X; rewrite X in E. lia.
      * move: Hd. by rewrite {1}/left_ Ea.
    + case => E. subst s'. exists rd, ((Frame (irq f) (App ps), b) :: al), (Some m), bl. constructor => //=.
      * constructor => //=. by constructor.
      * by constructor.
      * move => a Hx. case: (Hri a Hx) => [E|[x [[E|Hi] Ux]]]; [by left| |right; exists x; split => //; by right]. subst x. move: Ux. rewrite /unc /= Ea. lia.
      * move: Hd. by rewrite {1}/left_ Ea.
Qed.
Lemma run_II n s : 0 < n -> II n s -> exists s', run s = Some s' /\ II n s'.
Proof.
  move => Hn [rd [al [m [bl H]]]]. have Hs := i_sh _ _ _ _ _ _ H. case: m H Hs => [m|] H Hs; last by inversion Hs; subst; apply: run_idle H.
  case: al H Hs => [|[f b] al] H _; [by apply: run_boss H|by apply: run_above H].
Qed.
Lemma push_irq n s c rd al m bl : 0 < bsz c -> I n s rd al m bl -> II n (set_top s (Frame true (Fmt c) :: stack s)).
Proof.
  move => Hc H. move: (H) => [Hj Hp Hs Hb Hr Hro Hrp Hwp Ha Hri Ho Hd]. have Js : J n (set_top s (Frame true (Fmt c) :: stack s)) by case: Hj => *; constructor => //=; constructor.
  inversion Hs as [? F Es Erd|? ? ? F Es Bm La]; subst.
  - exists (zlen (concat (logged s))), [], None, (Frame true (Fmt c) :: stack s). constructor => //=; first by constructor. by constructor.
  - exists rd, ((Frame true (Fmt c), 0) :: al), (Some m0), bl. constructor => //=.
    + constructor => //=; first by rewrite Es. by constructor.
    + by constructor.
    + move => a Hx. case: (Hri a Hx) => [E|[x [Hi Ux]]]; [by left|right; exists x; split => //; by right].
Qed.
Lemma step_II n s o : 0 < n -> II n s -> fine o -> unparked o -> exists s', step s o = Some s' /\ II n s'.
Proof.
  move => Hn H Fo Uo. case: o Fo Uo => [c|c| | |i] Fo Uo //=.
  - eexists. split; first by []. case Es : (stack s) => [|f t] //. move: H => [rd [al [m [bl H]]]]. move: (H) => [Hj Hp Hs Hb Hr Hro Hrp Hwp Ha Hri Ho Hd].
    inversion Hs as [? F Es' Erd|? ? ? F Es' Bm La]; subst; last by rewrite Es in Es'; case: (al) Es'.
    exists (zlen (concat (logged s))), [], None, [Frame false (Fmt c)]. constructor => //=.
    + case: Hj => *. constructor => //=. by constructor.
    + by constructor.
    + by constructor.
    + by rewrite Es in Hd.
  - eexists. split; first by []. move: H => [rd [al [m [bl H]]]]. by apply: push_irq H.
  - by apply: run_II.
  - eexists. split; first by []. move: (H) => [rd [al [m [bl H']]]]. rewrite (i_pk _ _ _ _ _ _ H'). have -> : nth_error (@nil frame) i = None by case: (i). by case: (stack s).
Qed.
Lemma steps_II n l : 0 < n -> forall s, II n s -> Forall fine l -> Forall unparked l -> exists s', steps s l = Some s' /\ II n s'.
Proof.
  move => Hn. elim: l => [|o l IH] s H F U; first by exists s. inversion F; inversion U; subst. have [s' [E H']] := step_II n s o Hn H ltac:(done) ltac:(done). cbn. rewrite E. by apply: IH.
Qed.
Lemma init_II r : 0 < zlen r -> II (zlen r) (init r).
Proof.
  move => H. exists 0, [], None, []. constructor => //=; try lia; first by apply: init_J.
  - by constructor.
  - move => a. rewrite zlen_nil. lia.
Qed.

(** Statements *)
Lemma pk_room r l : 0 < zlen r -> Forall fine l -> exists s, steps (init r) l = Some s /\ zlen (ring s) = zlen r /\ full s = false /\ 0 <= used s < zlen r.
Proof. move => Hr F. have [s [E H]] := steps_J _ l Hr _ (init_J r Hr) F. exists s. have [_ U] := used_eq _ _ H. move: H => [? ? ? ? ? ?]. by []. Qed.
Lemma pk_order r l s : 0 < zlen r -> Forall fine l -> Forall unparked l -> steps (init r) l = Some s -> exists rest, concat (logged s) = from_ring (shown s) ++ rest.
Proof.
  move => Hr F U E. have [s' [E' [rd [al [m [bl H]]]]]] := steps_II _ l Hr _ (init_II r Hr) F U. have Es : s' = s by congruence. subst s'. have Ho := i_out _ _ _ _ _ _ H.
  rewrite -(firstn_skipn (Z.to_nat rd) (concat (logged s))) -Ho -app_assoc. by eexists.
Qed.
Lemma pk_all r l s : 0 < zlen r -> Forall fine l -> Forall unparked l -> steps (init r) l = Some s -> stack s = [] ->
  first s = false /\ used s = 0 /\ from_ring (shown s) = concat (logged s) /\ Permutation (direct (shown s) ++ logged s) (due s).
Proof.
  move => Hr F U E Es. have [s' [E' [rd [al [m [bl H]]]]]] := steps_II _ l Hr _ (init_II r Hr) F U. have Ess : s' = s by congruence. subst s'. have Us := used_I _ _ _ _ _ _ Hr H.
  move: (H) => [Hj Hp Hs Hb Hrr Hro Hrp Hwp Ha Hri Ho Hd]. inversion Hs as [? Ff Es' Erd|? ? ? Ff Es' Bm La]; subst; last by rewrite Es in Es'; case: (al) Es'. split => //. split; first lia.
  split; first by rewrite app_nil_r in Ho; rewrite Ho; apply: firstn_all2; rewrite /zlen; lia. by rewrite Es app_nil_r in Hd.
Qed.

(** Calls one after the other *)
Lemma run_first ps : forall s b t, stack s = Frame false (First ps b) :: t ->
  steps s (repeat ORun (length ps)) = Some (St (ring s) (rp s) (wp s) (full s) (first s) (nl s) (Frame false (First [] b) :: t) (parked s) (shown s ++ map EDirect ps) (logged s) (due s)).
Proof.
  elim: ps => [|p ps IH] s b t E; first by case: s E => *; cbn in *; subst; rewrite app_nil_r. cbn [length repeat steps step]. rewrite /run E. cbn [at_ irq].
  rewrite (IH _ b t); first by []. cbn. by rewrite -app_assoc.
Qed.
Lemma steps_app l1 l2 s : steps s (l1 ++ l2) = match steps s l1 with Some s' => steps s' l2 | None => None end.
Proof. elim: l1 s => [//|o l IH] s /=. case: (step s o) => //. Qed.
Lemma one_call s c : 0 < bsz c -> stack s = [] -> first s = false -> used s = 0 ->
  steps s (alone (nl s) c) = Some (St (ring s) (rp s) (wp s) (full s) false (has_nl (body c)) [] (parked s) (shown s ++ map EDirect (pieces (nl s) c)) (logged s) (due s ++ pieces (nl s) c)).
Proof.
  move => Hb E F U. rewrite /alone. cbn [steps step]. rewrite E. cbn [app steps step]. rewrite /run. cbn [stack set_top at_ irq]. rewrite -/(pieces (nl s) c). rewrite /= F steps_app -/(pieces (nl s) c) (run_first _ _ (bsz c) []); first by [].
  cbn [steps step]. rewrite /run. cbn [stack at_]. rewrite /used /N in U |- *. cbn [ring rp wp full]. rewrite U. have -> : Z.min (bsz c) 0 =? 0 = true by lia. by [].
Qed.
Lemma pk_sequential cs : forall s, Forall (fun c => 0 < bsz c) cs -> stack s = [] -> first s = false -> used s = 0 ->
  exists s', steps s (in_turn (nl s) cs) = Some s' /\ stack s' = [] /\ shown s' = shown s ++ map EDirect (texts (nl s) cs).
Proof.
  elim: cs => [|c cs IH] s Hb E F U; first by exists s; rewrite app_nil_r. inversion Hb; subst. cbn [in_turn texts]. rewrite steps_app one_call //.
  have [s' [E1 [E2 E3]]] := IH (St (ring s) (rp s) (wp s) (full s) false (has_nl (body c)) [] (parked s) (shown s ++ map EDirect (pieces (nl s) c)) (logged s) (due s ++ pieces (nl s) c)) ltac:(done) eq_refl eq_refl U.
  exists s'. split => //. split => //. rewrite E3 /= map_app app_assoc. by [].
Qed.
Lemma pk_in_turn r cs : Forall (fun c => 0 < bsz c) cs -> exists s, steps (init r) (in_turn true cs) = Some s /\ stack s = [] /\ shown s = map EDirect (texts true cs).
Proof. move => H. have [s [A [B C]]] := pk_sequential cs (init r) H eq_refl eq_refl eq_refl. by exists s. Qed.
