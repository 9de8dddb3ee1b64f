(** Model of kernel/fs/vfs_util.c (compute_abs_path) and of the string part of
    kernel/cwd.c.  A C string is the list of its characters without the NUL;
    the part of [dest] already written is kept reversed, so its head is d[-1].
    Bytes of [dest] after [d] are never read by the code and are not kept.
    [None] is a failed ASSERT or a write outside the buffer. *)
From Verif Require Import Lib.

Definition SLASH : Z := 47.
Definition DOT : Z := 46.

(** The loop of drop_last_component, kernel/fs/vfs_util.c:14-26; the head of
    [ro] is the character [d] points at *)
Fixpoint drop_loop (ro : list Z) : list Z :=
  match ro with
  | [] => []
  | _ :: rest =>
      if 1 <? zlen rest then
        match rest with
        | c :: _ => if c =? SLASH then rest else drop_loop rest
        | [] => rest
        end
      else rest
  end.

(** drop_last_component, kernel/fs/vfs_util.c:7-29 *)
Definition drop_last_component (ro : list Z) : option (list Z) :=
  match ro with
  | c :: _ => if c =? SLASH then Some (drop_loop ro) else None
  | [] => None
  end.

(** Main loop of compute_abs_path, kernel/fs/vfs_util.c:64-107 *)
Fixpoint abs_loop (fuel : nat) (cap : Z) (ro p : list Z) : option (list Z) :=
  match fuel with
  | O => None
  | S f =>
      match p with
      | [] => Some ro
      | c :: p1 =>
          let copy_char := if zlen ro <? cap then abs_loop f cap (c :: ro) p1 else None in
          if (c =? SLASH) && (hd 0 p1 =? SLASH) then abs_loop f cap ro p1
          else if negb (c =? DOT) then copy_char
          else if (0 <? zlen ro) && negb (hd 0 ro =? SLASH) then copy_char
          else if (hd 0 p1 =? SLASH) || (hd 0 p1 =? 0) then abs_loop f cap ro (tl p1)
          else if (hd 0 p1 =? DOT) && ((hd 0 (tl p1) =? SLASH) || (hd 0 (tl p1) =? 0)) then
            if 0 <? zlen ro then
              if 1 <? zlen ro then
                match drop_last_component ro with
                | Some ro' => abs_loop f cap ro' (tl (tl p1))
                | None => None
                end
              else abs_loop f cap ro (tl (tl p1))
            else None
          else copy_char
      end
  end.

Inductive path_res := PathOk (s : list Z) | PathENOENT | PathENAMETOOLONG.

(** The end of compute_abs_path, kernel/fs/vfs_util.c:109-121; [lastc] is p[-1] *)
Definition abs_finish (cap lastc : Z) (ro : list Z) : option path_res :=
  if 0 <? zlen ro then
    let ro' := if (1 <? zlen ro) && (hd 0 ro =? SLASH) && negb (lastc =? SLASH)
               then tl ro else ro in
    if (0 <? zlen ro') && (zlen ro' <? cap) then Some (PathOk (rev ro')) else None
  else None.

(** compute_abs_path, kernel/fs/vfs_util.c:31-122 *)
Definition compute_abs_path (path cwd : list Z) (dest_s : Z) : option path_res :=
  if negb (hd 0 cwd =? SLASH) then None
  else
    match path with
    | [] => Some PathENOENT
    | c :: _ =>
        let start :=
          if negb (c =? SLASH) then
            if last cwd 0 =? SLASH then
              if dest_s <? zlen path + zlen cwd + 1 then Some None
              else if zlen cwd + 1 <=? dest_s then Some (Some (rev cwd)) else None
            else None
          else if dest_s <? zlen path + 1 then Some None else Some (Some []) in
        match start with
        | None => None
        | Some None => Some PathENAMETOOLONG
        | Some (Some ro) =>
            match abs_loop (S (length path)) dest_s ro path with
            | None => None
            | Some ro' => abs_finish dest_s (last path 0) ro'
            end
        end
    end.

(** set_process_str_cwd, kernel/cwd.c:12-30: [buf] is pi->str_cwd *)
Definition set_process_str_cwd (buf path : list Z) : option (list Z) :=
  let pl := zlen path in
  match mem_write buf 0 (path ++ [0]) with
  | None => None
  | Some b1 =>
      if 1 <? pl then
        match aget b1 (pl - 1) with
        | None => None
        | Some c =>
            let pl' := if c =? SLASH then pl - 1 else pl in
            match aset b1 pl' SLASH with
            | None => None
            | Some b2 => aset b2 (pl' + 1) 0
            end
        end
      else Some b1
  end.

Inductive getcwd_res := GcERANGE | GcEINVAL | GcOk (buf : list Z) (rc : Z).

(** getcwd_nolock, kernel/cwd.c:32-56.  [cwd] is the string in str_cwd, [ubuf]
    the user buffer of [zlen ubuf] bytes (empty when NULL or size 0).
    Simplified: copy_to_user succeeds. *)
Definition getcwd (cwd ubuf : list Z) : option getcwd_res :=
  let cl := zlen cwd + 1 in
  match ubuf with
  | [] => Some GcEINVAL
  | _ =>
      if zlen ubuf <? cl then Some GcERANGE
      else
        match mem_write ubuf 0 (cwd ++ [0]) with
        | None => None
        | Some b1 =>
            if 2 <? cl then
              match aget b1 (cl - 2) with
              | Some c =>
                  if c =? SLASH then
                    match aset b1 (cl - 2) 0 with
                    | Some b2 => Some (GcOk b2 cl)
                    | None => None
                    end
                  else None
              | None => None
              end
            else Some (GcOk b1 cl)
        end
  end.
