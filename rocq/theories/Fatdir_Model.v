(** Model of the directory walk of the FAT code: common/fat32_base.c:29-341, 492-700 and the
    lookup of kernel/fs/fat32.c:22-33, 536-603.

    - image, arithmetic and outcomes as in Fat_Model;
    - the long name buffer is the list of bytes written so far (only bytes below lname_sz are
      read; the bzero calls have no other effect); writing at index 256 is [Oob];
    - the callback gets its own state, the image (which it may change), the offset of the entry
      and the long name; it answers true to stop. *)
From Verif Require Import Lib Fat_Model.

(** shortname_checksum, fat32_base.c:29-39 *)
Definition checksum (name : list Z) : Z :=
  fold_left (fun sum c => ((if Z.odd sum then 128 else 0) + sum / 2 + c) mod 256) name 0.

(** fat32_valid_chars, fat32_base.c:41-144: ASCII without control characters, space,
    exclamation mark, double quote, asterisk, slash, colon, less, greater, question mark,
    backslash, bar, DEL *)
Definition valid_char (c : Z) : bool :=
  (35 <=? c) && (c <=? 126) &&
  negb (existsb (Z.eqb c) [42; 47; 58; 60; 62; 63; 92; 124]).

(** struct fat_walk_long_name_ctx *)
Record lctx := L { l_valid : bool; l_buf : list Z; l_chk : Z }.
(** offsets of the 13 characters in struct fat_long_entry *)
Definition name_offs : list Z := [1; 3; 5; 7; 9; 14; 16; 18; 20; 22; 24; 28; 30].

(** the three loops of fat_handle_long_dir_entry, fat32_base.c:168-213: [None] = not ASCII *)
Fixpoint collect (v : vol) (e : Z) (offs : list Z) : res (option (list Z)) :=
  match offs with
  | [] => Ok (Some [])
  | o :: r =>
      bnd c <- e_byte v e o;
      bnd hi <- e_byte v e (o + 1);
      if negb (hi =? 0) then Ok None
      else if (c =? 0) || (c =? 255) then Ok (Some [])
      else bnd x <- collect v e r;
           Ok (match x with Some l => Some (c :: l) | None => None end)
  end.
(** fat32_base.c:217-228 (the characters come last to first) *)
Fixpoint push (x : lctx) (cs : list Z) : res lctx :=
  match cs with
  | [] => Ok x
  | c :: r =>
      if valid_char c then
        if zlen (l_buf x) <? 256 then push (L (l_valid x) (l_buf x ++ [c]) (l_chk x)) r else Oob
      else Ok (L false (l_buf x) (l_chk x))
  end.
(** fat_handle_long_dir_entry, fat32_base.c:149-229 *)
Definition handle_long (v : vol) (x : lctx) (e : Z) : res lctx :=
  bnd k <- e_byte v e 13;
  let x1 := if l_chk x =? k then x else L true [] k in
  if negb (l_valid x1) then Ok x1
  else
    bnd cs <- collect v e name_offs;
    match cs with
    | None => Ok (L false (l_buf x1) (l_chk x1))
    | Some l => push x1 (rev l)
    end.
(** finalize_long_name, fat32_base.c:231-245 *)
Definition finalize (v : vol) (x : lctx) (e : Z) : res (option (list Z)) :=
  bnd name <- ld v e 11;
  if l_chk x =? checksum name then
    (if zlen (l_buf x) <? 256 then Ok (Some (rev (l_buf x))) else Oob)
  else Ok None.

Section WALK.
  Context {S : Type}.
  Variable cb : S -> vol -> Z -> option (list Z) -> res (S * vol * bool).

  (** the loop over the entries of a cluster, fat32_base.c:283-321; the result's bool: the walk
      is over *)
  Fixpoint walk_entries (n : nat) (e : Z) (s : S) (v : vol) (x : option lctx)
      : res (S * vol * option lctx * bool) :=
    match n with
    | O => Ok (s, v, x, false)
    | Datatypes.S n' =>
        bnd attr <- e_byte v e 11;
        bnd b0 <- e_byte v e 0;
        let next := walk_entries n' (e + 32) s v in
        match x with
        | Some c =>
            if Z.land attr 15 =? 15 then bnd c1 <- handle_long v c e; next (Some c1)
            else if is_volid attr then next x
            else if b0 =? 229 then next x
            else if b0 =? 0 then Ok (s, v, x, true)
            else
              bnd name <- (if negb (zlen (l_buf c) =? 0) && l_valid c then finalize v c e else Ok None);
              bnd (s1, v1, stop) <- cb s v e name;
              let x1 := Some (L (l_valid c) [] (-1)) in
              if stop then Ok (s1, v1, x1, true)
              else walk_entries n' (e + 32) s1 v1 x1
        | None =>
            if is_volid attr then next None
            else if b0 =? 229 then next None
            else if b0 =? 0 then Ok (s, v, None, true)
            else
              bnd (s1, v1, stop) <- cb s v e None;
              if stop then Ok (s1, v1, None, true)
              else walk_entries n' (e + 32) s1 v1 None
        end
    end.
  (** the loop over the clusters, fat32_base.c:266-339; cluster 0: the FAT16 root, at [base] *)
  Fixpoint walk_clusters (fuel : nat) (base cluster : Z) (s : S) (v : vol) (x : option lctx)
      : res (S * vol) :=
    match fuel with
    | O => Fuel
    | Datatypes.S f =>
        let h := vh v in
        let b := if cluster =? 0 then base else cluster_ptr h cluster in
        bnd (s1, v1, x1, stop) <- walk_entries (Z.to_nat (entries_per_cluster h)) b s v x;
        if stop then Ok (s1, v1)
        else if cluster =? 0 then Ok (s1, v1)
        else
          bnd val <- read_fat v1 (fat_type h) 0 cluster;
          if is_eoc (fat_type h) val then Ok (s1, v1)
          else if is_bad (fat_type h) val then Assert
          else walk_clusters f base val s1 v1 x1
    end.
  (** fat_walk, fat32_base.c:247-341; [ln]: with a long name context *)
  Definition walk (fuel : nat) (ln : bool) (cluster : Z) (s : S) (v : vol) : res (S * vol) :=
    if good_type (fat_type (vh v)) then
      let '(base, clu) := if cluster =? 0 then rootdir (vh v) (fat_type (vh v)) else (0, cluster) in
      walk_clusters fuel base clu s v (if ln then Some (L false [] (-1)) else None)
    else Assert.
End WALK.

(** tolower, string_util.h:66-68 *)
Definition lower (c : Z) : Z := if (65 <=? c) && (c <=? 90) then c + 32 else c.
(** a string as C sees it *)
Fixpoint cstr (l : list Z) : list Z :=
  match l with [] => [] | c :: r => if c =? 0 then [] else c :: cstr r end.
(** characters before the first space *)
Fixpoint to_space (l : list Z) : list Z :=
  match l with [] => [] | c :: r => if c =? 32 then [] else c :: to_space r end.
(** fat_get_short_name, fat32_base.c:492-531: 11 name bytes and DIR_NTRes *)
Definition short_of (name : list Z) (ntres : Z) : list Z :=
  let f (b : bool) c := if b then lower c else c in
  map (f (Z.testbit ntres 3)) (to_space (firstn 8 name)) ++
  (let ext := skipn 8 name in
   if znth 32 ext 0 =? 32 then []
   else 46 :: map (f (Z.testbit ntres 4)) (to_space ext)).
Definition short_name (v : vol) (e : Z) : res (list Z) :=
  bnd name <- ld v e 11; bnd nt <- e_byte v e 12; Ok (cstr (short_of name nt)).
(** stricmp, string_util.c:197-204, equal or not *)
Fixpoint leq (a b : list Z) : bool :=
  match a, b with
  | [], [] => true
  | x :: a', y :: b' => (x =? y) && leq a' b'
  | _, _ => false
  end.
Definition same_nocase (a b : list Z) : bool := leq (map lower a) (map lower b).

(** struct fat_search_ctx, fat32_base.h:285-300; [s_pc]: the component, if fetched *)
Record sctx := SC { s_path : list Z; s_single : bool; s_pc : option (list Z);
                    s_res : option Z; s_sub : Z; s_notdir : bool }.
(** fat_fetch_next_component, fat32_base.c:533-549 (its answer is always true) *)
Fixpoint comp (l : list Z) : list Z :=
  match l with [] => [] | c :: r => if c =? 47 then [] else c :: comp r end.
Definition fetch (s : sctx) : res (sctx * list Z) :=
  let c := comp (s_path s) in
  if zlen c <? 256 then
    Ok (SC (skipn (length c) (s_path s)) (s_single s) (Some c) (s_res s) (s_sub s) (s_notdir s), c)
  else Oob.
(** fat_search_entry_cb, fat32_base.c:551-638 *)
Definition search_cb (s : sctx) (v : vol) (e : Z) (long : option (list Z))
    : res (sctx * vol * bool) :=
  bnd (s1, pc) <- match s_pc s with Some c => Ok (s, c) | None => fetch s end;
  bnd m <- match long with
          | Some l => Ok (leq l pc)
          | None => bnd sn <- short_name v e; Ok (same_nocase sn pc)
          end;
  if negb m then Ok (s1, v, false)
  else
    bnd attr <- e_byte v e 11;
    if s_single s1 || (match s_path s1 with [] => true | _ => false end) then
      Ok (SC (s_path s1) (s_single s1) (s_pc s1) (Some e) (s_sub s1) (s_notdir s1), v, true)
    else
      let path := tl (s_path s1) in
      match path with
      | [] => if is_dir attr then
                Ok (SC path (s_single s1) (s_pc s1) (Some e) (s_sub s1) (s_notdir s1), v, true)
              else Ok (SC path (s_single s1) (s_pc s1) (s_res s1) (s_sub s1) true, v, true)
      | _ =>
          if negb (is_dir attr) then
            Ok (SC path (s_single s1) (s_pc s1) (s_res s1) (s_sub s1) (s_notdir s1), v, true)
          else
            bnd c <- first_cluster v e;
            Ok (SC path (s_single s1) None (s_res s1) c (s_notdir s1), v, true)
      end.
Definition search_init (path : list Z) (single : bool) : sctx := SC path single None None 0 false.
(** the loop of fat_search_entry, fat32_base.c:680-685 *)
Fixpoint search_loop (n : nat) (fuel : nat) (s : sctx) (v : vol) : res sctx :=
  if s_sub s =? 0 then Ok s
  else
    match n with
    | O => Fuel
    | Datatypes.S n' =>
        bnd (s1, _) <- walk search_cb fuel true (s_sub s)
          (SC (s_path s) (s_single s) (s_pc s) (s_res s) 0 (s_notdir s)) v;
        search_loop n' fuel s1 v
    end.
Inductive found := Found (e : Z) | NoEnt | NotDir.
(** fat_search_entry, fat32_base.c:655-696; [path]: what follows the leading slash *)
Definition search_entry (n fuel : nat) (v : vol) (path : list Z) : res found :=
  match path with
  | [] => Ok (Found (fst (rootdir (vh v) (fat_type (vh v)))))
  | _ =>
      bnd (s, _) <- walk search_cb fuel true 0 (search_init path false) v;
      bnd s1 <- search_loop n fuel s v;
      Ok (match s_res s1 with Some e => Found e | None => if s_notdir s1 then NotDir else NoEnt end)
  end.

(** fat_fs_walk_generic, kernel/fs/fat32.c:24-33: which cluster a directory entry stands for; the
    root is known by the address of its first entry *)
Definition root_off (v : vol) : Z := fst (rootdir (vh v) (fat_type (vh v))).
Definition root_clu (v : vol) : Z := snd (rootdir (vh v) (fat_type (vh v))).
Definition dir_cluster (v : vol) (e : Z) : res Z :=
  if e =? root_off v then Ok (root_clu v) else first_cluster v e.
(** fat_get_entry, kernel/fs/fat32.c:544-603: lookup of the first component of [name] in the
    directory with entry [dir]; the result: the entry and whether it is a directory *)
Definition is_dots (c : list Z) : bool := leq c [46] || leq c [46; 46].
Definition get_entry (fuel : nat) (v : vol) (dir : Z) (name : list Z) : res (option (Z * bool)) :=
  if (dir =? root_off v) && is_dots (comp name) then Ok (Some (root_off v, true))
  else
    bnd clu <- dir_cluster v dir;
    bnd (s, _) <- walk search_cb fuel true clu (search_init name true) v;
    match (if s_notdir s then None else s_res s) with
    | None => Ok None
    | Some e =>
        bnd attr <- e_byte v e 11;
        bnd c <- first_cluster v e;
        Ok (Some (if is_dir attr && ((c =? 0) || (c =? root_clu v)) then (root_off v, true)
                  else (e, is_dir attr)))
    end.

(** the callback of fat_getdents, kernel/fs/fat32.c:369-398, with a consumer that takes every
    entry: offset of the entry, name, directory or not *)
Definition list_cb (s : list (Z * list Z * bool)) (v : vol) (e : Z) (long : option (list Z))
    : res (list (Z * list Z * bool) * vol * bool) :=
  bnd name <- match long with Some l => Ok l | None => short_name v e end;
  bnd attr <- e_byte v e 11;
  Ok (s ++ [(e, name, is_dir attr)], v, false).
Definition getdents (fuel : nat) (v : vol) (clu : Z) : res (list (Z * list Z * bool)) :=
  bnd (s, _) <- walk list_cb fuel true clu [] v; Ok s.
