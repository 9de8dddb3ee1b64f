From Verif Require Import Lib Itoa_Model Itoa_Spec Itoa_Proofs Printk_Model Printk_Spec.

Ltac dif X := match type of X with context [if ?b then _ else _] => destruct b end.
Section N.
Variable n : Z.
Definition cut (l : list Z) : list Z := firstn (Z.to_nat n) l.
Definition put (out t : list Z) : list Z * bool := (cut (out ++ t), zlen (out ++ t) <? n).
Lemma cut_short l : zlen l <= n -> cut l = l.
Proof. intros H. unfold cut. apply firstn_all2. unfold zlen in H. lia. Qed.
Lemma cut_app l t : n <= zlen l -> cut (l ++ t) = cut l.
Proof. intros H. unfold cut. rewrite firstn_app. unfold zlen in H. replace (Z.to_nat n - length l)%nat with O by lia. rewrite firstn_O, app_nil_r. reflexivity. Qed.
Lemma cut_len l : 0 <= n -> zlen (cut l) = Z.min n (zlen l).
Proof. intros H. unfold cut, zlen. rewrite firstn_length. lia. Qed.
Lemma put_nil out : zlen out < n -> put out [] = (out, true).
Proof. intros H. unfold put. rewrite app_nil_r, cut_short by lia. rewrite (proj2 (Z.ltb_lt _ _) H). reflexivity. Qed.
Lemma wchar_put out c : zlen out < n -> wchar n out c = put out [c].
Proof. intros H. unfold wchar, put. rewrite cut_short; [reflexivity|]. rewrite zlen_app. change (zlen [c]) with 1. lia. Qed.
Lemma andw_put out t1 t2 k : zlen out < n -> (forall o, zlen o < n -> k o = put o t2) -> andw (put out t1) k = put out (t1 ++ t2).
Proof.
  intros H K. unfold andw, put at 1 2. cbn [fst snd]. destruct (zlen (out ++ t1) <? n) eqn:E.
  - rewrite cut_short by lia. rewrite K by lia. unfold put. rewrite <- app_assoc. reflexivity.
  - unfold put. rewrite E, app_assoc. rewrite (cut_app (out ++ t1)) by lia. f_equal. symmetry. apply Z.ltb_ge. rewrite zlen_app. pose proof (zlen_nonneg t2). lia.
Qed.
Lemma whenw_put b out t k : zlen out < n -> k out = put out t -> whenw b out k = put out (if b then t else []).
Proof. intros H K. destruct b; [exact K|]. symmetry. apply put_nil, H. Qed.
Lemma wpad_put m c : forall out, zlen out < n -> wpad n m c out = put out (repeat c m).
Proof.
  induction m as [|m IH]; intros out H; cbn [wpad repeat]; [symmetry; apply put_nil, H|]. rewrite wchar_put by exact H. rewrite (andw_put out [c] (repeat c m)); auto.
Qed.
Lemma wchars_all_ok s : forall out, zlen out <= n -> wchars_all n out s = cut (out ++ s).
Proof.
  induction s as [|c s IH]; intros out H; cbn [wchars_all]; [rewrite app_nil_r, cut_short; auto|]. destruct (zlen out <? n) eqn:E.
  - rewrite IH by (rewrite zlen_app; change (zlen [c]) with 1; lia). rewrite <- app_assoc. reflexivity.
  - rewrite cut_app, cut_short by lia. reflexivity.
Qed.
Lemma wchars_ok s : forall out len, 0 <= len -> zlen out <= n -> wchars n out s len = cut (out ++ firstn (Z.to_nat len) s).
Proof.
  induction s as [|c s IH]; intros out len L H; cbn [wchars]; [rewrite firstn_nil, app_nil_r, cut_short; auto|]. destruct (0 <? len) eqn:E0; cbn [andb].
  - replace (Z.to_nat len) with (S (Z.to_nat (len - 1))) by lia. cbn [firstn]. destruct (zlen out <? n) eqn:E.
    + rewrite IH by (try (rewrite zlen_app; change (zlen [c]) with 1); lia). rewrite <- app_assoc. reflexivity.
    + rewrite cut_app, cut_short by lia. reflexivity.
  - replace (Z.to_nat len) with O by lia. cbn [firstn]. rewrite app_nil_r, cut_short by lia. reflexivity.
Qed.
Definition clip (s : list Z) (p : Z) : list Z := if 0 <=? p then firstn (Z.to_nat p) s else s.
Lemma wstr_put out s p : zlen out < n -> wstr n out s p = put out (clip s p).
Proof.
  intros H. unfold wstr, put, clip. assert (C : forall t, (zlen (cut (out ++ t)) <? n) = (zlen (out ++ t) <? n)) by (intros t; pose proof (zlen_nonneg out); rewrite cut_len by lia; destruct (zlen (out ++ t) <? n) eqn:E; lia).
  destruct (0 <=? p) eqn:E; [rewrite wchars_ok by lia|rewrite wchars_all_ok by lia]; rewrite C; reflexivity.
Qed.
Definition pfx (f : Z) : list Z := if (f =? 120) || (f =? 112) then [48; 120] else if f =? 111 then [48] else [].
Lemma wprefix_put f out : zlen out < n -> wprefix n f out = put out (pfx f).
Proof.
  intros H. unfold wprefix, pfx. destruct ((f =? 120) || (f =? 112)).
  - rewrite wchar_put by exact H. rewrite (andw_put out [48] [120]); auto. intros o Ho. apply wchar_put, Ho.
  - destruct (f =? 111); [apply wchar_put, H|symmetry; apply put_nil, H].
Qed.
End N.

(** the text written by write_str, whatever the room *)
Definition wfield (x : ctx) (f : Z) (str : list Z) : option (list Z) :=
  let sl := s32 (zlen str) in
  let lp := Z.max 0 (s32 (lpad x - sl)) in
  let rp := Z.max 0 (s32 (rpad x - sl)) in
  if negb (lp =? 0) && negb (rp =? 0) then None
  else
    let isprec := (0 <=? prec x) && negb (f =? 115) in
    let zl := if isprec then true else zero x in
    let lp := if isprec then Z.max 0 (s32 (prec x - sl)) else lp in
    let off := if hash x then if f =? 120 then 2 else if f =? 111 then 1 else 0 else 0 in
    let lp := Z.max 0 (lp - off) in
    let rp := Z.max 0 (rp - off) in
    let pc := if zl && negb (f =? 99) then 48 else 32 in
    Some ((if zl && hash x then pfx f else []) ++ repeat pc (Z.to_nat lp) ++
          (if ((f =? 112) || hash x) && negb (pc =? 48) then pfx f else []) ++ clip str (prec x) ++ repeat pc (Z.to_nat rp)).
Lemma write_str_put n x f str out : zlen out < n -> write_str n x f str out = option_map (put n out) (wfield x f str).
Proof.
  intros H. unfold write_str, wfield. match goal with |- (if ?c then _ else _) = _ => destruct c end; [reflexivity|]. cbn [option_map]. f_equal.
  rewrite (whenw_put n _ out (pfx f)) by (auto using wprefix_put). apply andw_put; [exact H|]. intros o1 H1. rewrite wpad_put by exact H1. apply andw_put; [exact H1|]. intros o2 H2.
  rewrite (whenw_put n _ o2 (pfx f)) by (auto using wprefix_put). apply andw_put; [exact H2|]. intros o3 H3. rewrite wstr_put by exact H3. apply andw_put; [exact H3|]. intros o4 H4. apply wpad_put, H4.
Qed.

(** Relation between a run with room [n] and one with more room [m] *)
Definition outof (r : sres) : option (list Z) := match r with Go _ _ o => Some o | Stop o => Some o | _ => None end.
Definition same (n : Z) (a b : list Z) : Prop := cut n a = cut n b.
Definition rel (n : Z) (rn rm : sres) : Prop :=
  match rn with
  | Go f a o => rm = Go f a o /\ zlen o < n
  | Stop o => (rm = Stop o /\ zlen o < n) \/ (n <= zlen o <= n + 1 /\ forall om, outof rm = Some om -> n <= zlen om /\ same n o om)
  | r => rm = r
  end.
Lemma cut_cut n m l : n <= m -> cut n (cut m l) = cut n l.
Proof. intros H. unfold cut. rewrite firstn_firstn. f_equal. lia. Qed.

Section NM.
Variables n m W : Z.
Hypothesis n1 : 1 <= n.
Hypothesis nm : n <= m.
Lemma put_rel fmt args out t : zlen out < n ->
  rel n (if snd (put n out t) then Go fmt args (fst (put n out t)) else Stop (fst (put n out t)))
        (if snd (put m out t) then Go fmt args (fst (put m out t)) else Stop (fst (put m out t))).
Proof.
  intros H. unfold put. cbn [fst snd]. destruct (zlen (out ++ t) <? n) eqn:E.
  - replace (zlen (out ++ t) <? m) with true by lia. rewrite !cut_short by lia. split; [reflexivity|lia].
  - right. split; [rewrite cut_len by lia; lia|]. intros om Ho.
    assert (X : om = cut m (out ++ t)) by (destruct (zlen (out ++ t) <? m); cbn in Ho; congruence). subst om.
    split; [rewrite cut_len by lia; lia|]. unfold same. rewrite !cut_cut by lia. reflexivity.
Qed.
Lemma unknown_rel x fmt args out : zlen out < n -> rel n (unknown n W x fmt args out) (unknown m W x fmt args out).
Proof.
  intros H. unfold unknown. set (t0 := [37] ++ (if hash x then [35] else []) ++ (if zero x then [48] else [])).
  assert (R : forall k, n <= k -> andw (wchar k out 37) (fun out => andw (whenw (hash x) out (fun out => wchar k out 35)) (fun out => whenw (zero x) out (fun out => wchar k out 48))) = put k out t0).
  { intros k K. rewrite wchar_put by lia. apply andw_put; [lia|]. intros o1 H1. rewrite (whenw_put k _ o1 [35]) by (auto using wchar_put). apply andw_put; [exact H1|]. intros o2 H2. apply whenw_put; auto using wchar_put. }
  rewrite !R by lia. clear R. change (put n out t0) with (cut n (out ++ t0), zlen (out ++ t0) <? n). change (put m out t0) with (cut m (out ++ t0), zlen (out ++ t0) <? m). cbn [fst snd]. destruct (zlen (out ++ t0) <? n) eqn:E; cbn [negb].
  - replace (zlen (out ++ t0) <? m) with true by lia. cbn [negb]. rewrite !cut_short by lia. set (o := out ++ t0) in *.
    set (d := if rpad (with_zero x false) =? 0 then lpad (with_zero x false) else s32 (- rpad (with_zero x false))).
    assert (Fin : forall t, rel n
       (match fmt with [] => if snd (wchar n (cut n (o ++ t)) 0) then PastEnd else Stop (fst (wchar n (cut n (o ++ t)) 0))
                     | c :: fmt => if snd (wchar n (cut n (o ++ t)) c) then Go fmt args (fst (wchar n (cut n (o ++ t)) c)) else Stop (fst (wchar n (cut n (o ++ t)) c)) end)
       (match fmt with [] => if snd (wchar m (cut m (o ++ t)) 0) then PastEnd else Stop (fst (wchar m (cut m (o ++ t)) 0))
                     | c :: fmt => if snd (wchar m (cut m (o ++ t)) c) then Go fmt args (fst (wchar m (cut m (o ++ t)) c)) else Stop (fst (wchar m (cut m (o ++ t)) c)) end)).
    { intros t. assert (G : forall c, let on := cut n (o ++ t) ++ [c] in let om := cut m (o ++ t) ++ [c] in
          (zlen on < n -> on = om /\ zlen om < m) /\ (n <= zlen on -> zlen on <= n + 1 /\ n <= zlen om /\ same n on om)).
      { intros c on om. unfold on, om. rewrite !zlen_app, !cut_len by lia. change (zlen [c]) with 1. split; intros X.
        - rewrite !cut_short by lia. split; [reflexivity|lia].
        - split; [lia|]. split; [lia|]. unfold same. destruct (Z_lt_le_dec (zlen (o ++ t)) n).
          + rewrite !(cut_short _ (o ++ t)) by lia. reflexivity.
          + rewrite (cut_app n (cut n (o ++ t))) by (rewrite cut_len; lia). rewrite (cut_app n (cut m (o ++ t))) by (rewrite cut_len; lia). rewrite !cut_cut by lia. reflexivity. }
      unfold wchar. cbn [fst snd]. destruct fmt as [|c fmt'].
      - specialize (G 0). cbv zeta in G. destruct G as [G1 G2]. destruct (zlen (cut n (o ++ t) ++ [0]) <? n) eqn:En.
        + destruct (G1 ltac:(lia)) as [_ G3]. replace (zlen (cut m (o ++ t) ++ [0]) <? m) with true by lia. reflexivity.
        + right. destruct (G2 ltac:(lia)) as (A & B & C). split; [lia|]. intros om Ho. destruct (zlen (cut m (o ++ t) ++ [0]) <? m); cbn in Ho; [discriminate|]. injection Ho as <-. auto.
      - specialize (G c). cbv zeta in G. destruct G as [G1 G2]. destruct (zlen (cut n (o ++ t) ++ [c]) <? n) eqn:En.
        + destruct (G1 ltac:(lia)) as [Ge G3]. replace (zlen (cut m (o ++ t) ++ [c]) <? m) with true by lia. rewrite Ge. split; [reflexivity|rewrite <- Ge; lia].
        + right. destruct (G2 ltac:(lia)) as (A & B & C). split; [lia|]. intros om Ho. assert (X : om = cut m (o ++ t) ++ [c]) by (destruct (zlen (cut m (o ++ t) ++ [c]) <? m); cbn in Ho; congruence). subst om. auto. }
    destruct (d =? 0).
    + specialize (Fin []). rewrite app_nil_r, !cut_short in Fin by lia. exact Fin.
    + destruct (itoa W d intbuf 10) as [b|]; [|reflexivity]. rewrite !write_str_put by lia. destruct (wfield _ _ _) as [t|]; [|reflexivity]. cbn [option_map]. unfold put. cbn [fst]. apply Fin.
  - right. split; [rewrite cut_len by lia; lia|].
    assert (Pm : forall om, (exists s, om = cut m (out ++ t0) ++ s) -> n <= zlen om /\ same n (cut n (out ++ t0)) om).
    { intros om (s & ->). split; [rewrite zlen_app, cut_len by lia; pose proof (zlen_nonneg s); lia|]. unfold same. rewrite (cut_app n (cut m (out ++ t0))) by (rewrite cut_len; lia). rewrite !cut_cut by lia. reflexivity. }
    intros om Ho. apply Pm. destruct (zlen (out ++ t0) <? m) eqn:Em; cbn [negb] in Ho; [|injection Ho as <-; exists []; rewrite app_nil_r; reflexivity].
    rewrite (cut_short m (out ++ t0)) in * by lia. set (o := out ++ t0) in *.
    assert (Fin : forall o2, (exists s, o2 = o ++ s) -> outof (match fmt with [] => if snd (wchar m o2 0) then PastEnd else Stop (fst (wchar m o2 0)) | c :: fmt => if snd (wchar m o2 c) then Go fmt args (fst (wchar m o2 c)) else Stop (fst (wchar m o2 c)) end) = Some om -> exists s, om = o ++ s).
    { intros o2 (s & ->) X. unfold wchar in X. cbn [fst snd] in X. destruct fmt as [|c fmt'].
      - dif X; [discriminate|]. injection X as <-. rewrite <- app_assoc. eauto.
      - dif X; injection X as <-; rewrite <- app_assoc; eauto. }
    match type of Ho with context [if ?b =? 0 then Some o else _] => destruct (b =? 0) end; [apply (Fin o); [exists []; rewrite app_nil_r; reflexivity|exact Ho]|]. destruct (itoa _ _ _ _) as [b|]; [|discriminate]. rewrite write_str_put in Ho by lia. destruct (wfield _ _ _) as [t|]; [|discriminate]. cbn [option_map] in Ho.
    apply (Fin (fst (put m o t))); [|exact Ho]. unfold put, cut. cbn [fst]. rewrite firstn_app, firstn_all2 by (unfold zlen in Em; lia). eauto.
Qed.
Lemma seq_rel fuel : forall x prev fmt args out, zlen out < n -> rel n (seq n W fuel x prev fmt args out) (seq m W fuel x prev fmt args out).
Proof.
  induction fuel as [|fuel IH]; intros x prev fmt args out H; [reflexivity|]. cbn [seq]. destruct fmt as [|c fmt']; [left; auto|].
  destruct (is_conv c).
  - destruct (param W x c args) as [[[t f] args']|]; [|reflexivity]. rewrite !write_str_put by lia. destruct (wfield x f t) as [w|]; [|reflexivity]. cbn [option_map]. pose proof (put_rel fmt' args' out w H) as P. destruct (put n out w) as [on [|]], (put m out w) as [om [|]]; exact P.
  - destruct (c =? 48); [apply IH, H|]. destruct ((49 <=? c) && (c <=? 57)); [destruct (number W (c :: fmt')) as [[k rest]|]; [apply IH, H|reflexivity]|].
    destruct (c =? 42); [destruct (take_int args) as [[k a]|]; [apply IH, H|reflexivity]|].
    assert (Un : rel n (unknown n W x (c :: fmt') args out) (unknown m W x (c :: fmt') args out)) by (apply unknown_rel, H).
    destruct (c =? 45).
    { destruct (starred fmt') as [f2|]; [destruct (take_int args) as [[k a]|]; [apply IH, H|reflexivity]|]. destruct (number W fmt') as [[k rest]|]; [apply IH, H|reflexivity]. }
    destruct (c =? 46).
    { destruct (starred fmt') as [f2|]; [destruct (take_int args) as [[k a]|]; [apply IH, H|reflexivity]|]. destruct (number W fmt') as [[k rest]|]; [apply IH, H|reflexivity]. }
    destruct (c =? 35).
    { destruct (hash x); [destruct fmt'; [apply unknown_rel, H|apply IH, H]|]. destruct (negb (prev =? 37)); [exact Un|]. destruct fmt'; [exact Un|apply IH, H]. }
    destruct ((c =? 122) || (c =? 116) || (c =? 106) || (c =? 113) || (c =? 76)); [destruct (weqb (wid x) Default); [apply IH, H|exact Un]|].
    destruct ((c =? 108) || (c =? 104)); [destruct (next_wid (c =? 108) (wid x)); [apply IH, H|exact Un]|]. exact Un.
Qed.
Lemma process_rel fuel fmt args out : zlen out < n -> rel n (process_seq n W fuel fmt args out) (process_seq m W fuel fmt args out).
Proof.
  intros H. unfold process_seq. destruct fmt as [|c fmt']; [left; auto|]. destruct ((c =? 37) || (128 <=? c)); [|apply seq_rel, H]. rewrite !wchar_put by lia. apply put_rel, H.
Qed.
End NM.

(** what is printed is never taken back *)
Lemma put_grows n out t : zlen out < n -> exists s, fst (put n out t) = out ++ s.
Proof. intros H. unfold put, cut. cbn [fst]. rewrite firstn_app, firstn_all2 by (unfold zlen in H; lia). eauto. Qed.
Lemma go_grows (b : bool) fmt args o o' : outof (if b then Go fmt args o else Stop o) = Some o' -> o' = o.
Proof. destruct b; cbn; congruence. Qed.
Lemma unknown_grows n W x fmt args out o : zlen out < n -> outof (unknown n W x fmt args out) = Some o -> exists t, o = out ++ t.
Proof.
  intros H. unfold unknown. set (t0 := [37] ++ (if hash x then [35] else []) ++ (if zero x then [48] else [])).
  assert (R : andw (wchar n out 37) (fun out => andw (whenw (hash x) out (fun out => wchar n out 35)) (fun out => whenw (zero x) out (fun out => wchar n out 48))) = put n out t0).
  { rewrite wchar_put by lia. apply andw_put; [lia|]. intros o1 H1. rewrite (whenw_put n _ o1 [35]) by (auto using wchar_put). apply andw_put; [exact H1|]. intros o2 H2. apply whenw_put; auto using wchar_put. }
  rewrite R. clear R. destruct (snd (put n out t0)) eqn:E; cbn [negb]; [|intros X; injection X as <-; apply put_grows, H].
  assert (L : zlen (fst (put n out t0)) < n) by (unfold put in *; cbn [fst snd] in *; rewrite cut_short by lia; lia).
  destruct (put_grows n out t0 H) as (s0 & S0). rewrite S0 in *. set (d := if rpad _ =? 0 then _ else _).
  assert (Fin : forall o2, (exists s, o2 = out ++ s) -> outof (match fmt with [] => if snd (wchar n o2 0) then PastEnd else Stop (fst (wchar n o2 0)) | c :: fmt => if snd (wchar n o2 c) then Go fmt args (fst (wchar n o2 c)) else Stop (fst (wchar n o2 c)) end) = Some o -> exists s, o = out ++ s).
  { intros o2 (s & ->) X. unfold wchar in X. cbn [fst snd] in X. destruct fmt as [|c fmt'].
    - dif X; [discriminate|]. injection X as <-. rewrite <- app_assoc. eauto.
    - dif X; injection X as <-; rewrite <- app_assoc; eauto. }
  destruct (d =? 0); [intros Ho; apply (Fin (out ++ s0)); eauto|]. destruct (itoa _ _ _ _) as [b|]; [|discriminate]. rewrite write_str_put by lia. destruct (wfield _ _ _) as [t|]; [|discriminate]. cbn [option_map]. intros Ho.
  apply (Fin (fst (put n (out ++ s0) t))); [|exact Ho]. destruct (put_grows n (out ++ s0) t L) as (s1 & S1). rewrite S1, <- app_assoc. eauto.
Qed.
Lemma seq_grows n W fuel : forall x prev fmt args out o, zlen out < n -> outof (seq n W fuel x prev fmt args out) = Some o -> exists t, o = out ++ t.
Proof.
  induction fuel as [|fuel IH]; intros x prev fmt args out o H Ho; [discriminate|]. cbn [seq] in Ho. destruct fmt as [|c fmt']; [injection Ho as <-; exists []; rewrite app_nil_r; reflexivity|].
  destruct (is_conv c).
  - destruct (param W x c args) as [[[t f] args']|]; [|discriminate]. rewrite write_str_put in Ho by lia. destruct (wfield x f t) as [w|]; [|discriminate]. cbn [option_map] in Ho. destruct (put_grows n out w H) as (s & S). destruct (put n out w) as [on [|]]; injection Ho as <-; cbn in S; eauto.
  - destruct (c =? 48); [apply (IH _ _ _ _ _ _ H Ho)|]. destruct ((49 <=? c) && (c <=? 57)); [destruct (number W (c :: fmt')) as [[k rest]|]; [apply (IH _ _ _ _ _ _ H Ho)|discriminate]|].
    destruct (c =? 42); [destruct (take_int args) as [[k a]|]; [apply (IH _ _ _ _ _ _ H Ho)|discriminate]|].
    destruct (c =? 45).
    { destruct (starred fmt') as [f2|]; [destruct (take_int args) as [[k a]|]; [apply (IH _ _ _ _ _ _ H Ho)|discriminate]|]. destruct (number W fmt') as [[k rest]|]; [apply (IH _ _ _ _ _ _ H Ho)|discriminate]. }
    destruct (c =? 46).
    { destruct (starred fmt') as [f2|]; [destruct (take_int args) as [[k a]|]; [apply (IH _ _ _ _ _ _ H Ho)|discriminate]|]. destruct (number W fmt') as [[k rest]|]; [apply (IH _ _ _ _ _ _ H Ho)|discriminate]. }
    destruct (c =? 35).
    { destruct (hash x); [destruct fmt'; [apply (unknown_grows _ _ _ _ _ _ _ H Ho)|apply (IH _ _ _ _ _ _ H Ho)]|]. destruct (negb (prev =? 37)); [apply (unknown_grows _ _ _ _ _ _ _ H Ho)|]. destruct fmt'; [apply (unknown_grows _ _ _ _ _ _ _ H Ho)|apply (IH _ _ _ _ _ _ H Ho)]. }
    destruct ((c =? 122) || (c =? 116) || (c =? 106) || (c =? 113) || (c =? 76)); [destruct (weqb (wid x) Default); [apply (IH _ _ _ _ _ _ H Ho)|apply (unknown_grows _ _ _ _ _ _ _ H Ho)]|].
    destruct ((c =? 108) || (c =? 104)); [destruct (next_wid (c =? 108) (wid x)); [apply (IH _ _ _ _ _ _ H Ho)|apply (unknown_grows _ _ _ _ _ _ _ H Ho)]|]. apply (unknown_grows _ _ _ _ _ _ _ H Ho).
Qed.
Lemma process_grows n W fuel fmt args out o : zlen out < n -> outof (process_seq n W fuel fmt args out) = Some o -> exists t, o = out ++ t.
Proof.
  intros H. unfold process_seq. destruct fmt as [|c fmt']; [intros X; injection X as <-; exists []; rewrite app_nil_r; reflexivity|]. destruct ((c =? 37) || (128 <=? c)); [|apply seq_grows, H]. rewrite wchar_put by lia. intros X. apply go_grows in X. subst o. apply put_grows, H.
Qed.
Lemma go_room n W fuel fmt args out f a o : 1 <= n -> zlen out < n -> process_seq n W fuel fmt args out = Go f a o -> zlen o < n.
Proof. intros N H E. pose proof (process_rel n n W N ltac:(lia) fuel fmt args out H) as R. rewrite E in R. apply R. Qed.
Lemma loop_grows n W fuel : 1 <= n -> forall fmt args out o, zlen out < n -> loop n W fuel fmt args out = Text o -> exists t, o = out ++ t.
Proof.
  intros N. induction fuel as [|fuel IH]; intros fmt args out o H E; [discriminate|]. cbn [loop] in E. destruct fmt as [|c fmt]; [injection E as <-; exists []; rewrite app_nil_r; reflexivity|]. destruct (c =? 37).
  - pose proof (process_grows n W (S fuel) fmt args out) as G. pose proof (go_room n W (S fuel) fmt args out) as R. destruct (process_seq n W (S fuel) fmt args out) as [f a o1|o1| | | |]; try discriminate.
    + destruct (G o1 H eq_refl) as (t & ->). destruct (IH f a _ o (R _ _ _ N H eq_refl) E) as (t2 & ->). rewrite <- app_assoc. eauto.
    + injection E as <-. apply (G o1 H eq_refl).
  - rewrite wchar_put in E by exact H. destruct (put_grows n out [c] H) as (s & S). destruct (snd (put n out [c])) eqn:Es; [|injection E as <-; eauto].
    apply IH in E; [|unfold put in *; cbn [fst snd] in *; rewrite cut_short by lia; lia]. destruct E as (t & ->). rewrite S, <- app_assoc. eauto.
Qed.

(** the whole function, with room [n] and with more room [m] *)
Lemma loop_rel n m W fuel : 1 <= n -> n <= m -> forall fmt args out, zlen out < n ->
  match loop n W fuel fmt args out with
  | Text on => zlen on <= n + 1 /\ (zlen on < n -> loop m W fuel fmt args out = Text on) /\ (n <= zlen on -> forall om, loop m W fuel fmt args out = Text om -> n <= zlen om /\ same n on om)
  | r => loop m W fuel fmt args out = r
  end.
Proof.
  intros N M. induction fuel as [|fuel IH]; intros fmt args out H; [reflexivity|]. cbn [loop]. destruct fmt as [|c fmt]; [split; [lia|]; split; [reflexivity|lia]|]. destruct (c =? 37).
  - pose proof (process_rel n m W N M (S fuel) fmt args out H) as R. pose proof (process_grows m W (S fuel) fmt args out) as G. pose proof (go_room m W (S fuel) fmt args out) as Rm.
    destruct (process_seq n W (S fuel) fmt args out) as [f a o|o| | | |]; cbn [rel] in R; try (rewrite R; reflexivity).
    + destruct R as [R L]. rewrite R. apply IH, L.
    + destruct R as [[R L]|[L R]].
      * rewrite R. split; [lia|]. split; [reflexivity|lia].
      * split; [lia|]. split; [lia|]. intros _ om E. destruct (process_seq m W (S fuel) fmt args out) as [f a o1|o1| | | |]; try discriminate.
        -- destruct (R o1 eq_refl) as [R1 R2]. destruct (loop_grows m W fuel ltac:(lia) f a o1 om (Rm f a o1 ltac:(lia) ltac:(lia) eq_refl) E) as (t & ->). split; [rewrite zlen_app; pose proof (zlen_nonneg t); lia|]. unfold same in *. rewrite R2, cut_app by lia. reflexivity.
        -- injection E as <-. apply R. reflexivity.
  - rewrite !wchar_put by lia. unfold put. cbn [fst snd]. destruct (zlen (out ++ [c]) <? n) eqn:E.
    + replace (zlen (out ++ [c]) <? m) with true by lia. rewrite !cut_short by lia. apply IH. lia.
    + rewrite cut_len by lia. split; [lia|]. split; [lia|]. intros _ om Em. destruct (zlen (out ++ [c]) <? m) eqn:E2.
      * rewrite cut_short in Em by lia. destruct (loop_grows m W fuel ltac:(lia) fmt args (out ++ [c]) om ltac:(lia) Em) as (t & ->). split; [rewrite zlen_app; pose proof (zlen_nonneg t); lia|]. unfold same. rewrite cut_cut, (cut_app n (out ++ [c]) t) by lia. reflexivity.
      * injection Em as <-. rewrite cut_len by lia. split; [lia|]. unfold same. rewrite !cut_cut by lia. reflexivity.
Qed.
Lemma bounds n W fuel fmt args o : 1 <= n -> vsnprintk n W fuel fmt args = Text o -> zlen o <= n + 1 /\ 0 <= nul_at n o <= n.
Proof. intros N E. pose proof (loop_rel n n W fuel N ltac:(lia) fmt args [] ltac:(unfold zlen; cbn; lia)) as R. unfold vsnprintk in E. rewrite E in R. destruct R as [R _]. split; [exact R|]. unfold nul_at. pose proof (zlen_nonneg o). destruct (zlen o <? n) eqn:X; lia. Qed.
Lemma prefixes n m W fuel fmt args om : 1 <= n -> n <= m -> vsnprintk m W fuel fmt args = Text om ->
  exists on, vsnprintk n W fuel fmt args = Text on /\ firstn (Z.to_nat n) on = firstn (Z.to_nat n) om /\ (zlen on < n -> on = om).
Proof.
  intros N M E. unfold vsnprintk in *. pose proof (loop_rel n m W fuel N M fmt args [] ltac:(unfold zlen; cbn; lia)) as R. destruct (loop n W fuel fmt args []) as [on|r]; [|congruence]. destruct R as (A & B & C). exists on. split; [reflexivity|].
  destruct (Z_lt_le_dec (zlen on) n) as [L|L].
  - specialize (B L). assert (on = om) by congruence. subst. auto.
  - split; [apply (C L om E)|lia].
Qed.
