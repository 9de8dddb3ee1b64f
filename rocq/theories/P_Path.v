(** Property C39.  Specification in Path_Spec.v. *)
From Verif Require Import Lib Path_Model Path_Spec Path_Proofs.

(** The result is the text of the location reached by walking the components,
    or ENAMETOOLONG when path (and cwd) do not fit the buffer.  Missing: paths
    in which "." or ".." is followed by two slashes, for which it is false. *)
Theorem C39_normalised_partial :
  forall cwd path dest_s,
  Forall name cwd -> path <> [] -> ~ In 0 path -> no_dots_before_double_slash path ->
  compute_abs_path path (dir_text cwd) dest_s =
  Some (if dest_s <? zlen path + (if hd 0 path =? 47 then 0 else zlen (dir_text cwd)) + 1
        then PathENAMETOOLONG
        else PathOk (path_text (destination cwd path) (last path 0 =? 47))) /\
  Forall name (destination cwd path).
Proof. exact abs_path_ok. Qed.
Print Assumptions C39_normalised_partial.

(** "/..///abc/./x/" from "/a/b/": "/abc/x/"; "../c" from "/a/b/": "/a/c" *)
Example C39_concrete :
  compute_abs_path [47;97;98;99;47;47;47;46;46;46;47;46;47;120;47] (dir_text [[97];[98]]) 256
    = Some (PathOk [47;97;98;99;47;46;46;46;47;120;47]) /\
  compute_abs_path [46;46;47;99] (dir_text [[97];[98]]) 256 = Some (PathOk [47;97;47;99]) /\
  destination [[97];[98]] [46;46;47;99] = [[97];[99]] /\
  Forall name [[97];[98]] /\ no_dots_before_double_slash [46;46;47;99].
Proof.
  repeat split; try (vm_compute; reflexivity).
  - repeat constructor; try discriminate; cbn; intuition discriminate.
  - intros ->. destruct a as [|? [|? [|? [|? [|? ?]]]]]; discriminate.
  - intros ->. destruct a as [|? [|? [|? [|? [|? ?]]]]]; discriminate.
Qed.

(** Whatever the path: no access outside the buffer, no failed assertion, and
    the result is absolute and fits *)
Theorem C39_in_bounds :
  forall cwd path dest_s, Forall name cwd -> ~ In 0 path ->
  exists r, compute_abs_path path (dir_text cwd) dest_s = Some r /\
    forall s, r = PathOk s -> hd 0 s = 47 /\ zlen s < dest_s.
Proof. exact abs_path_safe. Qed.
Print Assumptions C39_in_bounds.

(** "/a/.//../b" becomes "/a/b": the wrong directory *)
Theorem C39_wrong_destination_refuted :
  exists path s,
  ~ In 0 path /\ compute_abs_path path (dir_text []) 256 = Some (PathOk s) /\
  walk [] (components s) <> destination [] path.
Proof. exact double_slash_wrong. Qed.
Print Assumptions C39_wrong_destination_refuted.

(** "/..//x" becomes "//x": not a normalised text *)
Theorem C39_empty_component_refuted :
  exists path s,
  ~ In 0 path /\ compute_abs_path path (dir_text []) 256 = Some (PathOk s) /\
  forall loc slash, Forall name loc -> s <> path_text loc slash.
Proof. exact double_slash_empty. Qed.
Print Assumptions C39_empty_component_refuted.

(** chdir's stored text of the current directory, up to 254 characters *)
Theorem C39_cwd_text_partial :
  forall loc slash buf, Forall name loc -> zlen buf = 256 ->
  zlen (path_text loc slash) <= 254 ->
  exists rest, set_process_str_cwd buf (path_text loc slash) = Some (dir_text loc ++ 0 :: rest) /\
    zlen (dir_text loc ++ 0 :: rest) = 256.
Proof. exact set_cwd_ok. Qed.
Print Assumptions C39_cwd_text_partial.

(** A 255-character path passes the length checks and overflows str_cwd *)
Theorem C39_cwd_buffer_refuted :
  exists loc, Forall name loc /\
  compute_abs_path (path_text loc false) (dir_text []) 256 = Some (PathOk (path_text loc false)) /\
  forall buf, zlen buf = 256 -> set_process_str_cwd buf (path_text loc false) = None.
Proof. exact cwd_overflow. Qed.
Print Assumptions C39_cwd_buffer_refuted.

(** getcwd returns the text of the current location *)
Theorem C39_getcwd_text :
  forall loc ubuf, Forall name loc -> zlen (dir_text loc) + 1 <= zlen ubuf ->
  exists rest rc, getcwd (dir_text loc) ubuf = Some (GcOk (path_text loc false ++ 0 :: rest) rc).
Proof. exact getcwd_ok. Qed.
Print Assumptions C39_getcwd_text.

(** but refuses a buffer that would hold the text and its terminator exactly *)
Theorem C39_getcwd_exact_size_refuted :
  forall loc ubuf, Forall name loc -> loc <> [] ->
  zlen ubuf = zlen (path_text loc false) + 1 ->
  getcwd (dir_text loc) ubuf = Some GcERANGE.
Proof. exact getcwd_exact_size. Qed.
Print Assumptions C39_getcwd_exact_size_refuted.

Example C39_cwd_concrete :
  set_process_str_cwd (repeat 0 256) [47;97;47;98] = Some ([47;97;47;98;47] ++ repeat 0 251) /\
  getcwd [47;97;47;98;47] (repeat 9 7) = Some (GcOk [47;97;47;98;0;0;9] 6).
Proof. split; vm_compute; reflexivity. Qed.
