(** C79: the PS/2 keyboard. *)
From Verif Require Import Lib Kb_Model Kb_Spec Kb_Proofs Kb_Refuted.

(** Every sequence of keys: the handlers are told exactly the keys, in order, with the characters given by the keys down and the locks, up to a reset. *)
Theorem C79_decode : forall layout numkey toupper evs, Forall good evs ->
  snd (run layout numkey toupper kb0 (flat_map code evs)) = expect layout numkey toupper up_base [] evs.
Proof. exact decode0. Qed.
Print Assumptions C79_decode.

(** Afterwards the table says which keys are down and the locks count the presses. *)
Theorem C79_table : forall layout numkey toupper evs s o, Forall good evs -> run layout numkey toupper kb0 (flat_map code evs) = (s, o) -> dead s = false ->
  kstate s = KDef /\ (forall ext k, prs s ext k = down up_base (rev evs) ext k) /\ num s = lock false 69 (rev evs) /\ caps s = lock false 58 (rev evs).
Proof. exact table0. Qed.
Print Assumptions C79_table.

(** From every state, after any lost or foreign bytes: two plain bytes, and all following keys are told right, with respect to the table at that time. *)
Theorem C79_resync : forall layout numkey toupper s b1 b2 evs s' o, dead s = false -> b1 <> 224 -> b1 <> 225 -> b2 <> 224 -> b2 <> 225 -> Forall good evs ->
  run layout numkey toupper s [b1; b2] = (s', o) -> dead s' = false ->
  snd (run layout numkey toupper s ([b1; b2] ++ flat_map code evs)) = o ++ expect layout numkey toupper (base_of s') [] evs.
Proof. exact resync_decode. Qed.
Print Assumptions C79_resync.

(** ESC [ digits e becomes ESC [ digits ; modifiers + 1 e. *)
Theorem C79_ansi_digits : forall ds e m, ds <> [] -> Forall (fun c => 48 <= c <= 57) ds -> m <> 0 -> ansi_of (csi ds e) m = Some (csi (ds ++ [59; 49 + m]) e).
Proof. exact ansi_digits_ok. Qed.
Print Assumptions C79_ansi_digits.

(** ESC [ e becomes ESC [ 1 ; modifiers + 1 e. *)
Theorem C79_ansi_plain : forall e m, ~ 48 <= e <= 57 -> m <> 0 -> ansi_of (csi [] e) m = Some (csi [49; 59; 49 + m] e).
Proof. exact ansi_plain_ok. Qed.
Print Assumptions C79_ansi_plain.

(** No sequence has more than 7 characters (the buffer of the caller has 16). *)
Theorem C79_ansi_room : forall key m r, 0 <= m < 8 -> ansi key m = Some r -> zlen r <= 7.
Proof. exact ansi_room. Qed.
Print Assumptions C79_ansi_room.

(** F1 to F5 with any modifier give nothing. *)
Theorem C79_function_keys_refuted : forall key m, 59 <= key <= 63 -> m <> 0 -> ansi key m = None.
Proof. exact ansi_fn. Qed.
Print Assumptions C79_function_keys_refuted.

(** KB_MOD_ALT matches exactly when Shift alone is down (the values of Alt and Shift are exchanged). *)
Theorem C79_modifiers_refuted : forall s, exact_match s mod_alt = true <->
  (is_pressed s 42 || is_pressed s 54 = true /\ is_pressed s 56 || is_pressed s 57400 = false /\ is_pressed s 29 || is_pressed s 57373 = false).
Proof. exact mod_swapped. Qed.
Print Assumptions C79_modifiers_refuted.

(** A lost release leaves the key down for ever. *)
Theorem C79_lost_byte_refuted : typed [42; 170; 30] = [Ev 42 0 true; Ev 42 0 false; Ev 30 97 true] /\ typed [42; 30] = [Ev 42 0 true; Ev 30 65 true].
Proof. exact stuck_shift. Qed.
Print Assumptions C79_lost_byte_refuted.

(** A lock key changes its lock with every repetition while held. *)
Theorem C79_repeat_refuted : typed (flat_map code [Key false 58 true; Key false 30 true]) = [Ev 30 65 true] /\
  typed (flat_map code [Key false 58 true; Key false 58 true; Key false 30 true]) = [Ev 30 97 true].
Proof. exact caps_repeat. Qed.
Print Assumptions C79_repeat_refuted.

(** Ctrl + Alt + Del only with the left keys. *)
Theorem C79_right_ctrl_refuted : typed (flat_map code [Key false 29 true; Key false 56 true; Key true 83 true]) = [Ev 29 0 true; Ev 56 0 true; Reboot] /\
  typed (flat_map code [Key true 29 true; Key false 56 true; Key true 83 true]) = [Ev 57373 0 true; Ev 56 0 true; Ev 57427 0 true].
Proof. exact right_ctrl. Qed.
Print Assumptions C79_right_ctrl_refuted.

(** Shift, an extended key within fake shifts, Pause, CapsLock *)
Example C79_nonvacuous :
  Forall good [Key false 42 true; Key false 30 true; Fake false; Key true 72 true; Fake true; Pause 29 69; Key false 42 false; Key false 58 true; Key false 30 false] /\
  typed (flat_map code [Key false 42 true; Key false 30 true; Fake false; Key true 72 true; Fake true; Pause 29 69; Key false 42 false; Key false 58 true; Key false 30 false]) =
    [Ev 42 0 true; Ev 30 65 true; Ev 57416 0 true; Ev 42 0 false; Ev 30 65 false] /\
  ansi 57416 1 = Some [27; 91; 49; 59; 50; 65] /\ ansi 64 4 = Some [27; 91; 49; 55; 59; 53; 126].
Proof. split; [repeat constructor; simpl; lia | vm_compute; repeat split]. Qed.

