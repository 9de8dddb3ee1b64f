(** What path resolution is supposed to do.  Of Resolve_Model.v only the types,
    the world and the type of the result are used. *)
From Verif Require Import Lib Resolve_Model.

(** ** Paths *)
(** The names of a path: the non-empty pieces between slashes *)
Fixpoint pieces (s acc : list Z) : list (list Z) :=
  match s with
  | [] => [rev acc]
  | c :: s' => if c =? SLASH then rev acc :: pieces s' [] else pieces s' (c :: acc)
  end.
Definition nonempty (n : list Z) : bool := match n with [] => false | _ => true end.
Definition names (path : list Z) : list (list Z) := filter nonempty (pieces path []).

Definition absolute (path : list Z) : Prop := exists s, path = SLASH :: s.
(** ends with a slash *)
Definition trailing (path : list Z) : bool := last path 0 =? SLASH.
(** does not end with two slashes *)
Definition tidy (path : list Z) : Prop := forall s, path <> s ++ [SLASH; SLASH].

(** ** The walk *)
Definition place := (Z * Z)%type.      (* file system and inode *)

(** The root of what is mounted at a place *)
Definition mounted (W : world) (p q : place) : Prop :=
  exists m, In m (mnts W) /\ (m_host m, m_hino m) = p /\ q = (m_target m, root W (m_target m)).
Definition uncovered (W : world) (p : place) : Prop :=
  forall m, In m (mnts W) -> (m_host m, m_hino m) <> p.

(** Following mounts: a place and its type *)
Inductive cover (W : world) : place -> vtype -> place -> vtype -> Prop :=
| cover_mnt p t q : mounted W p q -> cover W p t q VDir
| cover_none p t : uncovered W p -> cover W p t p t.

Inductive outcome :=
| Obj (p : place) (t : vtype)           (* the object *)
| Missing (p : place) (n : list Z)      (* no entry [n] in directory [p]: it can be created *)
| Fail (rc : Z).

(** One name, symbolic links not followed: the object or nothing.  ".." of the
    root of a mounted file system goes on from where it is mounted. *)
Inductive entry (W : world) : place -> list Z -> option (place * vtype) -> Prop :=
| entry_top : entry W (rootfs W, root W (rootfs W)) DOTDOT
                (Some ((rootfs W, root W (rootfs W)), VDir))
| entry_up f m e j t q u : f <> rootfs W -> In m (mnts W) -> m_target m = f ->
    get W (m_host m) (m_hino m) DOTDOT = Some e -> e = (j, t) ->
    cover W (m_host m, j) t q u ->
    entry W (f, root W f) DOTDOT (Some (q, u))
| entry_some f d n j t q u : ~ (n = DOTDOT /\ d = root W f) ->
    get W f d n = Some (j, t) -> cover W (f, j) t q u -> entry W (f, d) n (Some (q, u))
| entry_none f d n : ~ (n = DOTDOT /\ d = root W f) ->
    get W f d n = None -> entry W (f, d) n None.

(** The start of a path *)
Definition start (W : world) (cwd : place) (path : list Z) (p : place) : Prop :=
  (absolute path /\ p = (rootfs W, root W (rootfs W))) \/ (~ absolute path /\ p = cwd).

(** [walk k p ns tr follow o]: from directory [p], over the names [ns], the path
    ending with a slash ([tr]), links as last name followed ([follow]), at most [k]
    links inside each other *)
Inductive walk (W : world) : nat -> place -> list (list Z) -> bool -> bool -> outcome -> Prop :=
| walk_nil k p tr fo : walk W k p [] tr fo (Obj p VDir)
| walk_last k p n (tr fo : bool) o : name W k p n (tr || fo) o ->
    (tr = true -> forall q t, o = Obj q t -> t = VDir) ->
    walk W k p [n] tr fo o
| walk_last_notdir k p n fo q t : name W k p n true (Obj q t) -> t <> VDir ->
    walk W k p [n] true fo (Fail ENOTDIR)
| walk_dir k p n n' ns tr fo q o : name W k p n true (Obj q VDir) ->
    walk W k q (n' :: ns) tr fo o -> walk W k p (n :: n' :: ns) tr fo o
| walk_notdir k p n n' ns tr fo q t : name W k p n true (Obj q t) -> t <> VDir ->
    walk W k p (n :: n' :: ns) tr fo (Fail ENOTDIR)
| walk_noent k p n n' ns tr fo q m : name W k p n true (Missing q m) ->
    walk W k p (n :: n' :: ns) tr fo (Fail ENOENT)
| walk_fail k p n n' ns tr fo rc : name W k p n true (Fail rc) ->
    walk W k p (n :: n' :: ns) tr fo (Fail rc)
(** One name, with links followed if [fo] *)
with name (W : world) : nat -> place -> list Z -> bool -> outcome -> Prop :=
| name_none k p n fo : entry W p n None -> name W k p n fo (Missing p n)
| name_obj k p n (fo : bool) q t : entry W p n (Some (q, t)) -> (t <> VLink \/ fo = false) ->
    name W k p n fo (Obj q t)
| name_loop p n q : entry W p n (Some (q, VLink)) -> name W 0 p n true (Fail ELOOP)
| name_link k p n f i l s o : entry W p n (Some ((f, i), VLink)) -> link W f i = l -> l <> [] ->
    start W p l s -> walk W k s (names l) (trailing l) true o ->
    name W (S k) p n true o
| name_empty k p n f i : entry W p n (Some ((f, i), VLink)) -> link W f i = [] ->
    name W (S k) p n true (Fail ENOENT).

(** The whole call *)
Inductive resolves (W : world) (cwd : place) : list Z -> bool -> outcome -> Prop :=
| resolves_empty fo : resolves W cwd [] fo (Fail ENOENT)
| resolves_walk path fo s o : path <> [] -> start W cwd path s ->
    walk W 3 s (names path) (trailing path) fo o -> resolves W cwd path fo o.

(** What the caller gets *)
Definition agrees (rc : Z) (v : vpath) (o : outcome) : Prop :=
  match o with
  | Obj (f, i) t => rc = 0 /\ v_fs v = f /\ v_obj v = Some (i, t)
  | Missing (f, d) n => rc = 0 /\ v_fs v = f /\ v_obj v = None /\ v_dir v = d
  | Fail e => rc = e /\ rc < 0
  end.

(** ** Worlds *)
(** A file system in the tree: the root file system or a mounted one *)
Definition in_tree (W : world) (f : Z) : Prop :=
  f = rootfs W \/ exists m, In m (mnts W) /\ m_target m = f.

Record good (W : world) : Prop := {
  (* mount points: one per place, each file system at most once, hosts in the tree,
     not at a root, and not directly below another mount point *)
  g_host : NoDup (map (fun m => (m_host m, m_hino m)) (mnts W));
  g_target : NoDup (map m_target (mnts W));
  g_tree : forall m, In m (mnts W) -> in_tree W (m_host m) /\ m_host m <> m_target m;
  g_up : forall m, In m (mnts W) ->
     exists j, get W (m_host m) (m_hino m) DOTDOT = Some (j, VDir) /\ uncovered W (m_host m, j);
  g_root : forall f, uncovered W (f, root W f);
  (* roots are directories *)
  g_rdir : forall f d n t, get W f d n = Some (root W f, t) -> t = VDir;
  (* link targets fit the buffer and do not end with two slashes *)
  g_link : forall f i, zlen (link W f i) < 256 /\ tidy (link W f i)
}.

(** The current directory of a process *)
Definition good_cwd (W : world) (cwd : vpath) : Prop :=
  in_tree W (v_fs cwd) /\ exists d, v_obj cwd = Some (d, VDir).
Definition at_dir (v : vpath) (p : place) : Prop := v_fs v = fst p /\ v_obj v = Some (snd p, VDir).

(** What the caller is told about the last name [c], looked up in directory [d] of
    [f]: where it is.  Nothing is said about ".." of a root, about a mount point and
    about a link that was followed ([b]). *)
Definition located (W : world) (f d : Z) (c : list Z) (b : bool) (v : vpath) : Prop :=
  (c = DOTDOT /\ d = root W f) \/
  (exists i t q, get W f d c = Some (i, t) /\ mounted W (f, i) q) \/
  (b = true /\ exists i, get W f d c = Some (i, VLink)) \/
  (v_fs v = f /\ v_dir v = d /\ v_obj v = get W f d c /\
   v_ent v = match get W f d c with Some _ => Some (d, c) | None => None end).

(** A name of the path or of a link that is too long *)
Definition long_name (NAMEMAX : Z) (W : world) (path : list Z) : Prop :=
  exists n, (In n (names path) \/ exists f i, In n (names (link W f i))) /\ NAMEMAX <= zlen n.

(** ** Locks and reference counts: what the log leaves held *)
Definition delta (e : event) (plus minus : event -> bool) : Z :=
  (if plus e then 1 else 0) - (if minus e then 1 else 0).
Definition net (plus minus : event -> bool) (log : list event) : Z :=
  fold_right (fun e a => delta e plus minus + a) 0 log.
Definition locks (f : Z) : list event -> Z :=
  net (fun e => match e with Lock g => g =? f | _ => false end)
      (fun e => match e with Unlock g => g =? f | _ => false end).
Definition fsrefs (f : Z) : list event -> Z :=
  net (fun e => match e with RetFs g => g =? f | _ => false end)
      (fun e => match e with RelFs g => g =? f | _ => false end).
Definition irefs (f i : Z) : list event -> Z :=
  net (fun e => match e with RetI g j => (g =? f) && (j =? i) | _ => false end)
      (fun e => match e with RelI g j => (g =? f) && (j =? i) | _ => false end).

(** Never more than one lock, never an unlock of something not locked, no lock of a
    file system that is not retained, the last reference not dropped while locked
    (the log is newest first) *)
Fixpoint disciplined (log : list event) : Prop :=
  match log with
  | [] => True
  | e :: log' => disciplined log' /\
    match e with
    | Lock f => (forall g, locks g log' = 0) /\ 0 < fsrefs f log'
    | Unlock f => locks f log' = 1
    | RelFs f => 0 < fsrefs f log' /\ (locks f log' = 0 \/ 1 < fsrefs f log')
    | RelI f i => 0 < irefs f i log'
    | _ => True
    end
  end.

(** No symbolic links at all, or no mounts at all *)
Definition calm (W : world) (cwd : vpath) : Prop :=
  (forall f d n i, get W f d n <> Some (i, VLink)) \/ (mnts W = [] /\ v_fs cwd = rootfs W).

Definition one (b : bool) : Z := if b then 1 else 0.
