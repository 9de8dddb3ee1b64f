(* What a process sees of its descriptors, and what handles are counted for. *)
From Coq Require Import ZArith List Bool Lia.
From Verif Require Import Lib Fd_Model.
Import ListNotations.
Open Scope Z_scope.

(* descriptor fd of process p *)
Definition ent (s : st) (p fd : Z) : option hnd :=
  match tb s p fd with Some h => hs s h | None => None end.

Definition fd_ok c (fd : Z) : Prop := 0 <= fd < maxh c.

(* POSIX: the lowest descriptor not open, from [ge] on *)
Definition lowest c s p ge fd : Prop :=
  ge <= fd < maxh c /\ ent s p fd = None /\ forall i, ge <= i < fd -> ent s p i <> None.
Definition all_open c s p ge : Prop := forall i, ge <= i < maxh c -> ent s p i <> None.

(* everybody else's descriptors, and one's own others, are as before *)
Definition others (s s' : st) (p fd : Z) : Prop :=
  forall a i, a <> p \/ i <> fd -> ent s' a i = ent s a i.
Definition same_ents (s s' : st) : Prop := forall a i, ent s' a i = ent s a i.

(* the number of descriptors, of all processes, that are of class C *)
Definition opens (C : hnd -> bool) (s : st) (n : Z) : Prop :=
  exists L : list (Z * Z), NoDup L /\
    (forall p fd, In (p, fd) L <-> exists x, ent s p fd = Some x /\ C x = true) /\ n = zlen L.

(* kmalloc returns free memory *)
Definition al_ok (al : st -> option Z) : Prop := forall s y, al s = Some y -> hs s y = None.
Definition alo_ok (alo : st -> option Z) : Prop := forall s o, alo s = Some o -> ok s o = ONone.

Inductive op :=
| OOpen (p o flags err : Z)
| OClose (p fd : Z)
| ODup (p fd : Z)
| ODup2 (p fd fd' : Z)
| ODupfd (p fd arg : Z)
| ODupfdCx (p fd arg : Z)
| OSetfd (p fd arg : Z)
| OSetfl (p fd arg : Z)
| OAdvance (p fd n : Z)
| OPipe2 (p flags : Z) (fault : bool)
| OExec (p : Z)
| OFork (p q : Z)
| OExit (p : Z).

Definition fst_of {A} (x : out (st * A)) : out st := bnd (s, _) <- x; Ok s.

Definition step c al alo (s : st) (o : op) : out st :=
  match o with
  | OOpen p o flags err => fst_of (sys_open c al s p o flags err)
  | OClose p fd => fst_of (sys_close c s p fd)
  | ODup p fd => fst_of (sys_dup c al s p fd)
  | ODup2 p fd fd' => fst_of (sys_dup2 c al s p fd fd')
  | ODupfd p fd arg => fst_of (dupfd c al s p fd arg)
  | ODupfdCx p fd arg => fst_of (dupfd_cloexec c al s p fd arg)
  | OSetfd p fd arg => fst_of (setfd c s p fd arg)
  | OSetfl p fd arg => fst_of (setfl c s p fd arg)
  | OAdvance p fd n => fst_of (advance c s p fd n)
  | OPipe2 p flags fault => fst_of (sys_pipe2 c al alo s p flags fault)
  | OExec p => exec c s p
  | OFork p q => fst_of (fork c al s p q)
  | OExit p => exit c s p
  end.

(* the descriptors in use are the lowest ones *)
Definition dense s p : Prop :=
  forall i j, 0 <= i < j -> ent s p j <> None -> ent s p i <> None.

(* what keeps to the proved part; see the refutations for the rest *)
Definition allowed (al : st -> option Z) (s : st) (o : op) : Prop :=
  match o with
  | OOpen p o _ _ => pr s p = true /\ ok s o = OFile
  | ODup2 p fd fd' =>
      pr s p = true /\ (ent s p fd' = None \/ forall s', al s' <> None)
  | ODupfd p _ arg | ODupfdCx p _ arg => pr s p = true /\ 0 <= arg
  | OSetfl p _ arg => pr s p = true /\ has arg (Z.lor O_ASYNC O_DIRECT) = false
  | OFork p q =>
      pr s p = true /\ pr s q = false /\ (dense s p \/ forall s', al s' <> None)
  | OClose p _ | ODup p _ | OSetfd p _ _ | OAdvance p _ _ | OPipe2 p _ _ | OExec p
  | OExit p => pr s p = true
  end.

Record init c (s : st) : Prop := {
  n_hs : forall h, hs s h = None;
  n_tb : forall p fd, tb s p fd = None;
  n_ok : forall o, ok s o <> OPipe;
  n_rf : forall o, rf s o = 0;
  n_fr : forall f, fr s f = 1;
  n_maxh : 0 <= maxh c }.

Inductive runs c : list op -> st -> st -> Prop :=
| runs_nil : forall s, runs c [] s s
| runs_cons : forall o l al alo s s1 s2,
    al_ok al -> alo_ok alo -> allowed al s o -> step c al alo s o = Ok s1 ->
    runs c l s1 s2 -> runs c (o :: l) s s2.

Definition reach c (s : st) : Prop := exists s0 l, init c s0 /\ runs c l s0 s.
