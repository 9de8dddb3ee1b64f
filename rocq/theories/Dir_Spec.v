(** What the directory operations of ramfs are supposed to guarantee.  Nothing
    here refers to the functions of Dir_Model.v except [step], [init] and the
    state itself. *)
From Verif Require Import Lib Dir_Model.

(** Entry [e] is in directory [d] under the name [n] *)
Definition named (s : st) (d : Z) (n : list Z) (e : entry) : Prop :=
  In e (ents s) /\ e_dir e = d /\ e_name e = n.

Definition is_dir (s : st) (d : Z) : Prop :=
  exists D, ino s d = Some D /\ i_type D = FDir.

Definition dots (n : list Z) : Prop := n = DOT \/ n = DOTDOT.

(** The number of elements with a property *)
Definition count {A} (f : A -> bool) (l : list A) : Z := zlen (filter f l).

(** The bytes taken by directory records *)
Definition bytes (l : list dent) : Z := fold_right (fun r a => d_reclen r + a) 0 l.

(** The record [r] describes the entry [e] *)
Definition describes (s : st) (r : dent) (e : entry) : Prop :=
  d_eid r = e_id e /\ d_name r = e_name e /\ d_ino r = e_tgt e /\
  exists T, ino s (e_tgt e) = Some T /\ d_type r = i_type T.

(** The name [n] in directory [d] leads to inode [i] *)
Definition leads (s : st) (d : Z) (n : list Z) (i : Z) : Prop :=
  exists e, named s d n e /\ e_tgt e = i.

(** The same object: nothing but the link, entry and reference counts differ *)
Definition same_object (x y : inode) : Prop :=
  i_type x = i_type y /\ i_mode x = i_mode y /\ i_parent x = i_parent y /\ i_path x = i_path y.

(** All allocated objects but [i] are the same ones as before *)
Definition others_kept (s s' : st) (i : Z) : Prop :=
  forall j, j <> i -> match ino s j, ino s' j with
    | Some x, Some y => same_object x y | None, None => True | _, _ => False end.

(** Is inode [i] used: by a name, an open handle, a current directory or a mount *)
Definition used (s : st) (i : Z) : Prop :=
  (exists e, In e (ents s) /\ e_tgt e = i) \/ (exists h, In h (hnds s) /\ h_ino h = i) \/ In i (pins s).

(** A directory with read permission *)
Definition readable (s : st) (d : Z) : Prop :=
  exists D, ino s d = Some D /\ i_type D = FDir /\ Z.land (i_mode D) 256 = 256.

Section Spec.
  Variable NAMEMAX : Z.

  (** A path component *)
  Definition okname (n : list Z) : Prop :=
    n <> [] /\ ~ In SLASH n /\ zlen n + 1 <= NAMEMAX.

  (** The bookkeeping: unique names, exact link counts, entry counts and
      reference counts, no dangling pointers *)
  Record core (s : st) : Prop := {
    c_ids : NoDup (map e_id (ents s));
    c_idlt : forall e, In e (ents s) -> e_id e < nexte s;
    c_names : NoDup (map (fun e => (e_dir e, e_name e)) (ents s));
    c_dir : forall e, In e (ents s) -> is_dir s (e_dir e);
    c_tgt : forall e, In e (ents s) -> exists T, ino s (e_tgt e) = Some T;
    c_nm : forall e, In e (ents s) -> okname (e_name e);
    c_nlink : forall i x, ino s i = Some x ->
      i_nlink x = count (fun e => e_tgt e =? i) (ents s);
    c_num : forall i x, ino s i = Some x -> i_type x = FDir ->
      i_num x = count (fun e => e_dir e =? i) (ents s);
    c_refs : forall i x, ino s i = Some x ->
      i_refs x = count (fun h => h_ino h =? i) (hnds s) + count (fun p => p =? i) (pins s);
    c_hids : NoDup (map h_id (hnds s));
    c_hlt : forall h, In h (hnds s) -> h_id h < nexth s;
    c_hino : forall h, In h (hnds s) -> exists x, ino s (h_ino h) = Some x /\
      (i_type x = FDir -> h_reg h = true) /\
      (i_type x <> FDir -> h_reg h = false /\ h_dpos h = None);
    c_hpos : forall h x, In h (hnds s) -> h_dpos h = Some x ->
      exists e, In e (ents s) /\ e_id e = x /\ e_dir e = h_ino h;
    c_pins : forall i, In i (pins s) -> is_dir s i;
    c_inolt : forall i x, ino s i = Some x -> 0 < i < nexti s
  }.

  (** The shape: a tree of directories with "." and ".."; everything has a name
      or is in use *)
  Record tree (s : st) : Prop := {
    t_root : exists R, ino s ROOT = Some R /\ i_type R = FDir /\ i_parent R = ROOT;
    t_dot : forall d D, ino s d = Some D -> i_type D = FDir ->
      exists e, named s d DOT e /\ e_tgt e = d;
    t_dotdot : forall d D, ino s d = Some D -> i_type D = FDir ->
      exists e, named s d DOTDOT e /\ e_tgt e = i_parent D;
    t_parent : forall d D, ino s d = Some D -> i_type D = FDir -> d <> ROOT ->
      is_dir s (i_parent D) /\ i_parent D < d;
    t_name : forall d D, ino s d = Some D -> i_type D = FDir -> d <> ROOT ->
      exists e, In e (ents s) /\ e_dir e = i_parent D /\ ~ dots (e_name e) /\ e_tgt e = d;
    t_only : forall e T, In e (ents s) -> ino s (e_tgt e) = Some T -> i_type T = FDir ->
      ~ dots (e_name e) -> e_dir e = i_parent T /\ e_tgt e <> ROOT;
    t_uniq : forall e e' T, In e (ents s) -> In e' (ents s) -> e_tgt e = e_tgt e' ->
      ino s (e_tgt e) = Some T -> i_type T = FDir ->
      ~ dots (e_name e) -> ~ dots (e_name e') -> e = e';
    t_live : forall i x, ino s i = Some x ->
      (exists e, In e (ents s) /\ e_tgt e = i) \/ 0 < i_refs x
  }.

  Definition wf (s : st) : Prop := core s /\ tree s.

  (** What the path resolution hands over: a live directory and a component that
      fits the name field; ".." of the root never gets there
      (vfs_handle_cross_fs_dotdot). *)
  Definition okarg (s : st) (a : parg) : Prop :=
    match a with
    | PRoot => True
    | PEnt d n sl => is_dir s d /\ n <> [] /\ ~ In SLASH n /\
                     zlen n + (if sl : bool then 2 else 1) <= NAMEMAX /\
                     ~ (d = ROOT /\ n = DOTDOT)
    end.

  Definition not_dots (a : parg) : Prop :=
    match a with PRoot => False | PEnt _ n _ => ~ dots n end.

  (** The calls for which the guarantee is proved; the others are the
      [_refuted] theorems *)
  Definition allowed (s : st) (o : op) : Prop :=
    match o with
    | OOpen _ _ _ a | OUnlink a | OChmod _ a | OChdir a => okarg s a
    | OMkdir al _ a | OSymlink al _ a => okarg s a /\ al 3%nat = true
    | ORmdir a => okarg s a /\ match a with PEnt _ n sl => n = DOT -> sl = false | PRoot => True end
    | OLink _ a b => okarg s a /\ okarg s b
    | ORename _ a b => okarg s a /\ okarg s b /\
        match a, b with
        | PEnt d n _, PEnt d' n' _ =>
            ~ dots n /\ ~ dots n' /\ ~ (d = d' /\ n = n') /\
            (d = d' \/ forall e T, named s d n e -> ino s (e_tgt e) = Some T -> i_type T <> FDir)
        | _, _ => False
        end
    | OClose h | OGetdents h _ _ | OSeek h _ => exists g, In g (hnds s) /\ h_id g = h
    | ODup _ h => exists g x, In g (hnds s) /\ h_id g = h /\ ino s (h_ino g) = Some x /\
                              i_type x <> FDir
    | OUnpin i => In i (pins s)
    end.
End Spec.

Section Reach.
  Variables (dbg : bool) (NAMEMAX DSZ : Z).

  Inductive reach : st -> Prop :=
  | reach_init : reach (init dbg NAMEMAX)
  | reach_step s o s' rc out : reach s -> allowed NAMEMAX s o ->
      step dbg NAMEMAX DSZ s o = Ok s' rc out -> reach s'.

  (** A listing with handle [h], from state [s] on: [log] is everything copied to
      the user by the getdents calls on [h] so far; other calls may come in
      between, except seek and close on [h]. *)
  Inductive listing (h : Z) (s0 : st) : st -> list dent -> Prop :=
  | listing_start : listing h s0 s0 []
  | listing_step s log o s' rc out : listing h s0 s log ->
      allowed NAMEMAX s o ->
      match o with
      | OSeek x _ | OClose x => x <> h
      | OGetdents x b l => x = h -> b <= l    (* the buffer is accessible *)
      | _ => True
      end ->
      step dbg NAMEMAX DSZ s o = Ok s' rc out ->
      listing h s0 s' (log ++ match o with OGetdents x _ _ => if x =? h then out else []
                              | _ => [] end).

  (** A directory handle that stands at the start: just opened, or rewound *)
  Definition at_start (s0 : st) (g : handle) : Prop :=
    exists s o h out, reach s /\ allowed NAMEMAX s o /\ step dbg NAMEMAX DSZ s o = Ok s0 h out /\ In g (hnds s0) /\ is_dir s0 (h_ino g) /\
      match o with
      | OOpen _ _ _ _ => 0 <= h /\ h_id g = h
      | OSeek k off => off = 0 /\ h_id g = k
      | _ => False
      end.
End Reach.
