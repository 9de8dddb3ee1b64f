From Coq Require Import ssreflect.
From Verif Require Import Lib Kb_Model Kb_Spec.
Ltac Zify.zify_post_hook ::= Z.to_euclidean_division_equations.

Lemma byte_all : forallb (fun b => (Z.land b 127 =? b mod 128) && Bool.eqb (Z.land b 128 =? 0) (b <? 128) &&
   (Z.lor (b mod 128) 57344 =? 57344 + b mod 128) && (Z.shiftr (b mod 128) 8 =? 0) && (Z.shiftr (57344 + b mod 128) 8 =? 224) &&
   (Z.land (b mod 128) 255 =? b mod 128) && (Z.land (57344 + b mod 128) 255 =? b mod 128)) (map Z.of_nat (seq 0 256)) = true.
Proof. by vm_compute. Qed.
Lemma byte_one b : 0 <= b < 256 -> Z.land b 127 = b mod 128 /\ (Z.land b 128 =? 0) = (b <? 128) /\ Z.lor (b mod 128) 57344 = 57344 + b mod 128 /\
  Z.shiftr (b mod 128) 8 = 0 /\ Z.shiftr (57344 + b mod 128) 8 = 224 /\ Z.land (b mod 128) 255 = b mod 128 /\ Z.land (57344 + b mod 128) 255 = b mod 128.
Proof.
  move=> H. have := byte_all. rewrite forallb_forall => F. have I : In b (map Z.of_nat (seq 0 256)).
  { apply/in_map_iff. exists (Z.to_nat b). split; first lia. apply/in_seq. lia. }
  have := F _ I. rewrite !andb_true_iff => -[[[[[[A B] C] D] E] G] K].
  split; first lia. split; first exact: eqb_prop. lia.
Qed.

Section P.
Variable layout : bool -> Z -> Z.
Variable numkey : Z -> Z.
Variable toupper : Z -> Z.
Notation run := (run layout numkey toupper).
Notation process := (process layout numkey toupper).
Variable bs : base.
Notation knows := (knows bs).
Notation expect := (expect layout numkey toupper bs).

Lemma run_app s l m : run s (l ++ m) = (let '(s1, o) := run s l in let '(s2, o') := run s1 m in (s2, o ++ o')).
Proof.
  elim: l s => [|b l IH] s /=; first by case: (run s m).
  case: (process s b) => s1 o. rewrite IH. case: (run s1 l) => s2 o2. case: (run s2 m) => s3 o3. by rewrite app_assoc.
Qed.
Lemma run_dead s l : dead s = true -> run s l = (s, []).
Proof. move=> D. elim: l => [|b l IH] //=. by rewrite /Kb_Model.process D IH. Qed.

Lemma key_step s h ext k p : 0 <= k < 128 -> dead s = false -> kstate s = KDef ->
  (forall e j, prs s e j = down bs h e j) -> num s = lock (bnum bs) 69 h -> caps s = lock (bcaps bs) 58 h ->
  let e := Key ext k p in
  forall s' o, key_int layout numkey toupper s (if ext then 57344 + k else k) p = (s', o) ->
  (is_reset bs (e :: h) e = true /\ dead s' = true /\ o = [Reboot]) \/
  (is_reset bs (e :: h) e = false /\ knows s' (e :: h) /\ o = told layout numkey toupper bs (e :: h) e).
Proof.
  move=> Hk D K Hd Hn Hc e s' o.
  have [_ [_ [_ [B4 [B5 [B6 B7]]]]]] := byte_one k ltac:(lia). have M : k mod 128 = k by lia. rewrite M in B4 B5 B6 B7.
  rewrite /key_int. set t := fun _ _ => _. set s1 := Kb _ t _ _ _.
  have E0 : key_e0 (if ext then 57344 + k else k) = ext by rewrite /key_e0; case: (ext); rewrite ?B4 ?B5.
  have E1 : Z.land (if ext then 57344 + k else k) 255 = k by case: (ext).
  have T : forall x j, t x j = down bs (e :: h) x j by move=> x j; rewrite /t E0 E1 /= Hd.
  have IP : forall j, 0 <= j < 128 -> is_pressed s1 j = down bs (e :: h) false j.
  { move=> j Hj. have [_ [_ [_ [J4 [_ [J6 _]]]]]] := byte_one j ltac:(lia). have Mj : j mod 128 = j by lia. rewrite Mj in J4 J6.
    by rewrite /is_pressed /key_e0 J4 J6 -T. }
  rewrite /key_pressed (IP 29) // (IP 56) //.
  have TR : lock (bnum bs) 69 h = lock (bnum bs) 69 (e :: h) -> lock (bcaps bs) 58 h = lock (bcaps bs) 58 (e :: h) ->
    translate layout numkey toupper s1 (if ext then 57344 + k else k) = char_of layout numkey toupper bs (e :: h) ext k.
  { move=> L1 L2. rewrite /translate /char_of (IP 42) // (IP 54) // /s1 /num /caps -/(num s) -/(caps s) Hn Hc L1 L2.
    case: (ext).
    - have -> : (256 <=? 57344 + k) = true by lia.
      have -> : (57344 + k =? 57372) = (k =? 28) by lia. by have -> : (57344 + k =? 57397) = (k =? 53) by lia.
    - by have -> : (256 <=? k) = false by lia. }
  have -> : ((if ext then 57344 + k else k) =? 57427) = ext && (k =? 83) by case: (ext); lia.
  have -> : ((if ext then 57344 + k else k) =? 69) = negb ext && (k =? 69) by case: (ext); lia.
  have -> : ((if ext then 57344 + k else k) =? 58) = negb ext && (k =? 58) by case: (ext); lia.
  have LK : forall x y, (p && negb ext && (k =? y) = false -> lock x y (e :: h) = lock x y h) /\ (p && negb ext && (k =? y) = true -> lock x y (e :: h) = negb (lock x y h)).
  { move=> x y. rewrite /e. case: (ext); case: (p) => /=; split=> // ->; done. }
  have R : is_reset bs (e :: h) e = p && ext && (k =? 83) && down bs (e :: h) false 29 && down bs (e :: h) false 56.
  { rewrite /is_reset. set hh := e :: h. clearbody hh. rewrite /e. by case: (ext); case: (p). }
  have T0 : told layout numkey toupper bs (e :: h) e = (if p && negb ext && ((k =? 69) || (k =? 58)) then [] else [Ev (if ext then 57344 + k else k) (char_of layout numkey toupper bs (e :: h) ext k) p]) by [].
  rewrite {}R {}T0.
  have -> : p && (ext && (k =? 83)) = p && ext && (k =? 83) by case: (p); case: (ext).
  have -> : p && (negb ext && (k =? 69)) = p && negb ext && (k =? 69) by case: (p); case: (ext).
  have -> : p && (negb ext && (k =? 58)) = p && negb ext && (k =? 58) by case: (p); case: (ext).
  case: (p && ext && (k =? 83) && down bs (e :: h) false 29 && down bs (e :: h) false 56).
  { move=> [<- <-]. by left. }
  case A: (p && negb ext && (k =? 69)).
  { move=> [<- <-]. right. split=> //. have B : p && negb ext && (k =? 58) = false. { move: A. case: (p); case: (ext) => //=. lia. }
    split. { split=> //; rewrite ?(proj2 (LK _ _) A) ?(proj1 (LK _ _) B) -?Hn -?Hc //. }
    move: A. case: (p); case: (ext) => //= ->. done. }
  case B: (p && negb ext && (k =? 58)).
  { move=> [<- <-]. right. split=> //.
    split. { split=> //; rewrite ?(proj2 (LK _ _) B) ?(proj1 (LK _ _) A) -?Hn -?Hc //. }
    move: B. case: (p); case: (ext) => //= ->. by rewrite orb_true_r. }
  move=> [<- <-]. right. split=> //. split.
  { split=> //; rewrite ?(proj1 (LK _ _) A) ?(proj1 (LK _ _) B) -?Hn -?Hc //. }
  rewrite TR ?(proj1 (LK _ _) A) ?(proj1 (LK _ _) B) //.
  by move: A B; case: (p); case: (ext) => //= -> ->.
Qed.

Lemma decode : forall evs s h, Forall good evs -> knows s h ->
  exists s', run s (flat_map code evs) = (s', expect h evs) /\ (dead s' = false -> knows s' (rev evs ++ h)).
Proof.
  elim=> [|e evs IH] s h G N; first by exists s.
  inversion G as [|? ? Ge Gs]; subst. rewrite [flat_map _ _]/= run_app [expect _ _]/=.
  move: (N) => [D K Hd Hn Hc].
  have NEXT : forall s1 o, run s (code e) = (s1, o) ->
    (is_reset bs (e :: h) e = true /\ dead s1 = true /\ o = [Reboot]) \/ (is_reset bs (e :: h) e = false /\ knows s1 (e :: h) /\ o = told layout numkey toupper bs (e :: h) e) ->
    exists s', (let '(s1, o) := run s (code e) in let '(s2, o') := run s1 (flat_map code evs) in (s2, o ++ o')) = (s', if is_reset bs (e :: h) e then [Reboot] else told layout numkey toupper bs (e :: h) e ++ expect (e :: h) evs) /\
      (dead s' = false -> knows s' (rev (e :: evs) ++ h)).
  { move=> s1 o -> [[R [D1 ->]]|[R [N1 ->]]]; rewrite R.
    - rewrite run_dead //. exists s1. by split=> //; rewrite D1.
    - have [s2 [E2 N2]] := IH _ _ Gs N1. rewrite E2. exists s2. split=> // /N2. by rewrite /= -app_assoc. }
  have [s1 [o E]] : exists s1 o, run s (code e) = (s1, o) by case: (run s (code e)) => s1 o; exists s1, o.
  apply: (NEXT _ _ E). move: E.
  case: e Ge {NEXT G} => [ext k p|p|x y] Ge.
  - move: Ge => [Hk Hg]. set b := if p then k else k + 128.
    have Hb : 0 <= b < 256 by rewrite /b; case: (p); lia.
    have [B1 [B2 [B3 _]]] := byte_one b Hb. have Mb : b mod 128 = k by rewrite /b; case: (p); lia.
    have Lb : (b <? 128) = p by rewrite /b; case: (p); lia. rewrite Mb in B1 B3. rewrite Lb in B2.
    case Ee: ext; rewrite /= -/b.
    + rewrite {1}/Kb_Model.process D K /=. rewrite /Kb_Model.process /= D.
      have -> : (b =? 42) || (b =? 170) = false by rewrite /b; rewrite Ee in Hg; case: (p); lia.
      rewrite B1 B2 B3 -/(set_kstate _ KDef). 
      case EK: (key_int _ _ _ _ _ _) => [s2 o2]. rewrite app_nil_r => -[<- <-].
      exact: (key_step _ _ true k p Hk _ _ _ _ _ _ _ EK).
    + rewrite {1}/Kb_Model.process D K.
      have -> : (b =? 224) = false. { rewrite /b; rewrite Ee in Hg. case Ep: (p); [lia|]. have := Hg Ep. lia. }
      have -> : (b =? 225) = false. { rewrite /b; rewrite Ee in Hg. case Ep: (p); [lia|]. have := Hg Ep. lia. }
      rewrite B1 B2. case EK: (key_int _ _ _ _ _ _) => [s2 o2]. rewrite app_nil_r => -[<- <-].
      exact: (key_step _ _ false k p Hk _ _ _ _ _ _ _ EK).
  - rewrite /= {1}/Kb_Model.process D K /= /Kb_Model.process /= D. case: p {Ge} => /= -[<- <-]; right; by split.
  - rewrite /= /Kb_Model.process D K /= ?D /= ?D /= => -[<- <-]. right; by split.
Qed.
End P.

Section Q.
Variable layout : bool -> Z -> Z.
Variable numkey : Z -> Z.
Variable toupper : Z -> Z.
Notation run := (run layout numkey toupper).
Lemma key_int_st s k p : kstate (fst (key_int layout numkey toupper s k p)) = kstate s.
Proof. rewrite /key_int /key_pressed. by case: (_ && _ && _ && _); case: (_ && (k =? 69)); case: (_ && (k =? 58)). Qed.
Lemma proc_st s b : dead s = false -> b <> 224 -> b <> 225 ->
  kstate (fst (process layout numkey toupper s b)) = match kstate s with KE1 => KE1b | _ => KDef end.
Proof.
  move=> D N1 N2. rewrite /process D. case K: (kstate s) => //.
  - have -> : (b =? 224) = false by lia. have -> : (b =? 225) = false by lia. by rewrite key_int_st.
  - case: ((b =? 42) || (b =? 170)) => //. by rewrite key_int_st.
Qed.
(** Two plain bytes bring every decoder back *)
Lemma resync s b1 b2 : dead s = false -> b1 <> 224 -> b1 <> 225 -> b2 <> 224 -> b2 <> 225 ->
  forall s' o, run s [b1; b2] = (s', o) -> dead s' = true \/ kstate s' = KDef.
Proof.
  move=> D A1 A2 B1 B2 s' o /=. case E1: (process layout numkey toupper s b1) => [s1 o1]. case E2: (process layout numkey toupper s1 b2) => [s2 o2] [<- _].
  have S1 := proc_st s b1 D A1 A2. rewrite E1 /= in S1.
  case D1: (dead s1); first by left; move: E2; rewrite /process D1 => -[<- _].
  have S2 := proc_st s1 b2 D1 B1 B2. rewrite E2 /= S1 in S2. right. rewrite S2. by case: (kstate s).
Qed.
Lemma base_knows s : dead s = false -> kstate s = KDef -> knows (base_of s) s [].
Proof. by move=> D K; split. Qed.
(** From any state of the decoder: after two plain bytes the next keys are told right *)
Lemma resync_decode s b1 b2 evs s' o : dead s = false -> b1 <> 224 -> b1 <> 225 -> b2 <> 224 -> b2 <> 225 -> Forall good evs ->
  run s [b1; b2] = (s', o) -> dead s' = false ->
  snd (run s ([b1; b2] ++ flat_map code evs)) = o ++ expect layout numkey toupper (base_of s') [] evs.
Proof.
  move=> D A1 A2 B1 B2 G E D'. rewrite run_app E. have [Dx|K] := resync _ _ _ D A1 A2 B1 B2 _ _ E; first by rewrite Dx in D'.
  have [s2 [E2 _]] := decode layout numkey toupper _ _ _ _ G (base_knows _ D' K). by rewrite E2.
Qed.
Lemma decode0 evs : Forall good evs -> snd (run kb0 (flat_map code evs)) = expect layout numkey toupper up_base [] evs.
Proof. move=> G. have [s [E _]] := decode layout numkey toupper up_base _ kb0 [] G ltac:(by split). by rewrite E. Qed.
Lemma table0 evs s o : Forall good evs -> run kb0 (flat_map code evs) = (s, o) -> dead s = false ->
  kstate s = KDef /\ (forall ext k, prs s ext k = down up_base (rev evs) ext k) /\ num s = lock false 69 (rev evs) /\ caps s = lock false 58 (rev evs).
Proof.
  move=> G E D. have [s' [E' N]] := decode layout numkey toupper up_base _ kb0 [] G ltac:(by split). rewrite E in E'. case: E' => Es _. subst s'.
  have [_ K P1 P2 P3] := N D. rewrite app_nil_r in P1 P2 P3. by split.
Qed.
End Q.

Lemma last_snoc (l : list Z) e : last (l ++ [e]) 0 = e.
Proof. exact: last_last. Qed.
Lemma ansi_digits ds e m : ds <> [] -> Forall (fun c => isdigit c = true) ds -> m <> 0 -> ansi_of (csi ds e) m = Some (csi (ds ++ [59; 49 + m]) e).
Proof.
  move=> N F Hm. rewrite /ansi_of. have -> : (m =? 0) = false by lia. case: ds N F => [//|d ds] _ F. inversion F as [|? ? F1 F2]; subst.
  rewrite /= F1 /=. rewrite /insert_mod /csi. change (27 :: 91 :: (d :: ds) ++ [e]) with ((27 :: 91 :: d :: ds) ++ [e]). rewrite removelast_last last_snoc /=. by rewrite -app_assoc.
Qed.
Lemma ansi_plain e m : isdigit e = false -> m <> 0 -> ansi_of (csi [] e) m = Some (csi [49; 59; 49 + m] e).
Proof. move=> N Hm. rewrite /ansi_of. have -> : (m =? 0) = false by lia. by rewrite /= N. Qed.
Lemma isdigit_iff c : isdigit c = true <-> 48 <= c <= 57.
Proof. rewrite /isdigit. lia. Qed.
Lemma ansi_digits_ok ds e m : ds <> [] -> Forall (fun c => 48 <= c <= 57) ds -> m <> 0 -> ansi_of (csi ds e) m = Some (csi (ds ++ [59; 49 + m]) e).
Proof. move=> N F. apply: ansi_digits => //. apply: Forall_impl F => c. by move/isdigit_iff. Qed.
Lemma ansi_plain_ok e m : ~ 48 <= e <= 57 -> m <> 0 -> ansi_of (csi [] e) m = Some (csi [49; 59; 49 + m] e).
Proof. move=> N. apply: ansi_plain. case E: (isdigit e) => //. by case: N; apply/isdigit_iff. Qed.
Lemma ansi_room key m r : 0 <= m < 8 -> ansi key m = Some r -> zlen r <= 7.
Proof.
  move=> Hm. rewrite /ansi. case E: (find _ _) => [[k l]|] //. have [I _] := find_some _ _ E.
  have A : forallb (fun e => forallb (fun m => match ansi_of (snd e) m with Some r => zlen r <=? 7 | None => true end) (map Z.of_nat (seq 0 8))) ansi_table = true by vm_compute.
  have := proj1 (forallb_forall _ _) A _ I. rewrite forallb_forall => B Er. have := B m. rewrite /= in Er. rewrite [snd _]/= Er.
  have M : In m (map Z.of_nat (seq 0 8)). { apply/in_map_iff. exists (Z.to_nat m). split; first lia. apply/in_seq. lia. }
  move=> /(_ M). lia.
Qed.
Lemma ansi_fn key m : 59 <= key <= 63 -> m <> 0 -> ansi key m = None.
Proof.
  move=> Hk Hm. have : key = 59 \/ key = 60 \/ key = 61 \/ key = 62 \/ key = 63 by lia.
  by move=> [->|[->|[->|[->| ->]]]]; rewrite /ansi /= /ansi_of; have -> : (m =? 0) = false by lia.
Qed.
(** The names of the modifiers: Alt and Shift are exchanged *)
Lemma mod_swapped s : exact_match s mod_alt = true <->
  (is_pressed s 42 || is_pressed s 54 = true /\ is_pressed s 56 || is_pressed s 57400 = false /\ is_pressed s 29 || is_pressed s 57373 = false).
Proof.
  rewrite /exact_match /modifiers /mod_alt. case: (is_pressed s 42 || is_pressed s 54); case: (is_pressed s 56 || is_pressed s 57400); case: (is_pressed s 29 || is_pressed s 57373); split; by [|move=> [? [? ?]]].
Qed.
