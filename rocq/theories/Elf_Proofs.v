(** The loops of the loader. *)
From Coq Require Import ssreflect.
From Verif Require Import Lib User_Model User_Spec Elf_Model Elf_Spec.
Ltac Zify.zify_post_hook ::= Z.to_euclidean_division_equations.

Lemma put_own s v off pos k : (forall p rw, pt s v <> Some (Some p, rw)) ->
  put s v off pos k = St (pt s) (fun x => if (v * 4096 + off <=? x) && (x <? v * 4096 + off + k) then fb s (pos + (x - (v * 4096 + off))) else mem s x) (fb s).
Proof. rewrite /put => H. case E: (pt s v) => [[[p |] rw] |] //. by case: (H p rw). Qed.

Lemma page_addr a v off : 0 <= off < 4096 -> a = v * 4096 + off -> a / 4096 = v /\ a mod 4096 = off.
Proof. lia. Qed.

(** The copy: pages [v] ... [v+n-1] are mapped, [rem] bytes from [va] are the file's *)
Lemma copy_ok c al f : forall n s v va pos rem e,
  (forall x, v <= x < v + Z.of_nat n -> al x = true /\ forall p rw, pt s x <> Some (Some p, rw)) ->
  v + Z.of_nat n <= base c / 4096 -> 0 <= rem -> pos + rem <= f_size f ->
  (rem = 0 \/ va / 4096 = v) -> va + rem <= (v + Z.of_nat n) * 4096 \/ rem = 0 ->
  exists s', copy_loop c al f n s v va pos rem e = Ok s' e /\ fb s' = fb s /\
    (forall x, pt s' x = if (v <=? x) && (x <? v + Z.of_nat n)
                         then match pt s x with None => Some (None, true) | y => y end else pt s x) /\
    (forall a, mem s' a = if (va <=? a) && (a <? va + rem) then fb s (pos + (a - va))
                          else if (v <=? a / 4096) && (a / 4096 <? v + Z.of_nat n)
                               then match pt s (a / 4096) with None => 0 | _ => mem s a end else mem s a).
Proof.
  elim=> [| n IH] s v va pos rem e HA B R P V L; cbn [copy_loop].
  - have R0 : rem = 0 by lia. exists s. split; first done. split; first done. split.
    + move=> x. by have -> : (v <=? x) && (x <? v + Z.of_nat 0) = false by lia.
    + move=> a. have -> : (va <=? a) && (a <? va + rem) = false by lia.
      by have -> : (v <=? a / 4096) && (a / 4096 <? v + Z.of_nat 0) = false by lia.
  - have -> : (base c / 4096 <=? v) = false by lia.
    have [AV FV] := HA v ltac:(lia).
    set s1 := match pt s v with None => new_page s v | Some _ => s end.
    have -> : (match pt s v with None => if al v then Some (new_page s v) else None | Some _ => Some s end) = Some s1.
    { rewrite /s1. case: (pt s v) => [y |] //. by rewrite AV. }
    have P1 : forall x, pt s1 x = if x =? v then match pt s v with None => Some (None, true) | y => y end else pt s x.
    { move=> x. rewrite /s1. case E: (pt s v) => [y |]; case: (Z.eqb_spec x v) => [-> | D] //=.
      - by rewrite Z.eqb_refl.
      - by have -> : (x =? v) = false by lia. }
    have M1 : forall a, mem s1 a = if a / 4096 =? v then match pt s v with None => 0 | _ => mem s a end else mem s a.
    { move=> a. rewrite /s1. case E: (pt s v) => [y |] /=; by case: (a / 4096 =? v). }
    have F1 : fb s1 = fb s by rewrite /s1; case: (pt s v).
    have FV1 : forall p rw, pt s1 v <> Some (Some p, rw).
    { move=> p rw. rewrite P1 Z.eqb_refl. case E: (pt s v) => [y |] //. rewrite -E. exact: FV. }
    have HA1 : forall x, v + 1 <= x < v + 1 + Z.of_nat n -> al x = true /\ forall p rw, pt s1 x <> Some (Some p, rw).
    { move=> x X. have [A1 A2] := HA x ltac:(lia). split => //. rewrite P1. by have -> : (x =? v) = false by lia. }
    clearbody s1.
    case: (Z.eqb_spec rem 0) => R0.
    + have [s' [-> [EF [EP EM]]]] := IH s1 (v + 1) va pos rem e HA1 ltac:(lia) R P ltac:(lia) ltac:(lia).
      exists s'. split; first done. split; first by rewrite EF. split.
      * move=> x. rewrite EP P1. case: (Z.eqb_spec x v) => [-> | D].
        -- have -> : (v + 1 <=? v) && (v <? v + 1 + Z.of_nat n) = false by lia. by have -> : (v <=? v) && (v <? v + Z.of_nat (S n)) = true by lia.
        -- by have -> : (v + 1 <=? x) && (x <? v + 1 + Z.of_nat n) = (v <=? x) && (x <? v + Z.of_nat (S n)) by lia.
      * move=> a. rewrite EM M1 P1 F1. subst rem. have -> : (va <=? a) && (a <? va + 0) = false by lia.
        case: (Z.eqb_spec (a / 4096) v) => [E | D].
        -- rewrite E. have -> : (v + 1 <=? v) && (v <? v + 1 + Z.of_nat n) = false by lia. by have -> : (v <=? v) && (v <? v + Z.of_nat (S n)) = true by lia.
        -- by have -> : (v + 1 <=? a / 4096) && (a / 4096 <? v + 1 + Z.of_nat n) = (v <=? a / 4096) && (a / 4096 <? v + Z.of_nat (S n)) by lia.
    + set off := va mod 4096. set k := Z.min rem (4096 - off).
      have V' : va / 4096 = v by lia. have EV : va = v * 4096 + off by rewrite /off; lia.
      have HO : 0 <= off < 4096 by rewrite /off; lia. clearbody off.
      have HK : 1 <= k <= rem /\ (k = rem \/ va + k = (v + 1) * 4096) /\ va + k <= (v + 1) * 4096 by rewrite /k; lia. clearbody k.
      have -> : (f_size f <? pos + k) = false by lia.
      rewrite put_own //. rewrite -EV. set s2 := St _ _ _.
      have [s' [-> [EF [EP EM]]]] := IH s2 (v + 1) (va + k) (pos + k) (rem - k) e HA1 ltac:(lia) ltac:(lia) ltac:(lia) ltac:(lia) ltac:(lia).
      exists s'. split; first done. split; first by rewrite EF /= F1. split.
      * move=> x. rewrite EP /s2 /= P1. case: (Z.eqb_spec x v) => [-> | D].
        -- have -> : (v + 1 <=? v) && (v <? v + 1 + Z.of_nat n) = false by lia. by have -> : (v <=? v) && (v <? v + Z.of_nat (S n)) = true by lia.
        -- by have -> : (v + 1 <=? x) && (x <? v + 1 + Z.of_nat n) = (v <=? x) && (x <? v + Z.of_nat (S n)) by lia.
      * move=> a. rewrite EM /s2 /= P1 F1.
        case: (Z.leb_spec va a) => A1; case: (Z.ltb_spec a (va + rem)) => A2; case: (Z.ltb_spec a (va + k)) => A3; cbn [andb].
        all: try (exfalso; lia).
        -- have -> : (va + k <=? a) && (a <? va + k + (rem - k)) = false by lia.
           have -> : (v + 1 <=? a / 4096) && (a / 4096 <? v + 1 + Z.of_nat n) = false by lia. by [].
        -- have -> : (va + k <=? a) && (a <? va + k + (rem - k)) = true by lia. f_equal. lia.
        -- have -> : (va + k <=? a) && (a <? va + k + (rem - k)) = false by lia. rewrite M1.
           case: (Z.eqb_spec (a / 4096) v) => [E | D].
           ++ rewrite E. have -> : (v + 1 <=? v) && (v <? v + 1 + Z.of_nat n) = false by lia. by have -> : (v <=? v) && (v <? v + Z.of_nat (S n)) = true by lia.
           ++ by have -> : (v + 1 <=? a / 4096) && (a / 4096 <? v + 1 + Z.of_nat n) = (v <=? a / 4096) && (a / 4096 <? v + Z.of_nat (S n)) by lia.
        -- have -> : (va + k <=? a) && (a <? va + k + (rem - k)) = false by lia. rewrite M1.
           case: (Z.eqb_spec (a / 4096) v) => [E | D].
           ++ rewrite E. have -> : (v + 1 <=? v) && (v <? v + 1 + Z.of_nat n) = false by lia. by have -> : (v <=? v) && (v <? v + Z.of_nat (S n)) = true by lia.
           ++ by have -> : (v + 1 <=? a / 4096) && (a / 4096 <? v + 1 + Z.of_nat n) = (v <=? a / 4096) && (a / 4096 <? v + Z.of_nat (S n)) by lia.
Qed.

(** The mapping of file pages [o], [o+1], ... *)
Lemma mmap_ok c al : forall n o s v e, (forall x, v <= x < v + Z.of_nat n -> al x = true /\ pt s x = None) ->
  v + Z.of_nat n <= base c / 4096 ->
  exists s', mmap_loop c al (map (fun k => o + Z.of_nat k) (seq 0 n)) s v e = Ok s' e /\ fb s' = fb s /\ mem s' = mem s /\
    forall x, pt s' x = if (v <=? x) && (x <? v + Z.of_nat n) then Some (Some (o + (x - v)), false) else pt s x.
Proof.
  elim=> [| n IH] o s v e HA B.
  - exists s. do 3 (split; first done). move=> x. by have -> : (v <=? x) && (x <? v + Z.of_nat 0) = false by lia.
  - cbn [seq map mmap_loop]. have -> : (base c / 4096 <=? v) = false by lia.
    have [-> ->] := HA v ltac:(lia). rewrite -seq_shift map_map.
    have -> : map (fun x => o + Z.of_nat (S x)) (seq 0 n) = map (fun k => (o + 1) + Z.of_nat k) (seq 0 n) by apply: map_ext => k; lia.
    set s1 := St _ _ _.
    have [s' [-> [EF [EM EP]]]] := IH (o + 1) s1 (v + 1) e
      ltac:(move=> x X; have [A1 A2] := HA x ltac:(lia); split => //=; by have -> : (x =? v) = false by lia) ltac:(lia).
    exists s'. do 3 (split; first done). move=> x. rewrite EP /=.
    case: (Z.leb_spec (v + 1) x) => X1; case: (Z.ltb_spec x (v + 1 + Z.of_nat n)) => X2; cbn [andb].
    + have -> : (v <=? x) && (x <? v + Z.of_nat (S n)) = true by lia. do 3 f_equal. lia.
    + have -> : (v <=? x) && (x <? v + Z.of_nat (S n)) = false by lia. by have -> : (x =? v) = false by lia.
    + case: (Z.eqb_spec x v) => X3.
      * have -> : (v <=? x) && (x <? v + Z.of_nat (S n)) = true by lia. do 3 f_equal. lia.
      * by have -> : (v <=? x) && (x <? v + Z.of_nat (S n)) = false by lia.
    + lia.
Qed.
