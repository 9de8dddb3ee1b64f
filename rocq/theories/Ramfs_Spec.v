(** Specification of a file: a size and a byte at every position. *)
From Coq Require Export Sorting.Sorted.
From Verif Require Import Lib Ramfs_Model.

Record file := File { size : Z; byte : Z -> Z }.
Definition empty_file : file := File 0 (fun _ => 0).
Definition content (f : file) (pos n : Z) : list Z := map (fun k => byte f (pos + Z.of_nat k)) (seq 0 (Z.to_nat n)).
Definition sread (f : file) (pos len : Z) : list Z := content f pos (Z.min len (size f - pos)).
Definition swrite (f : file) (pos : Z) (data : list Z) : file :=
  if zlen data =? 0 then f
  else File (Z.max (size f) (pos + zlen data)) (fun p => if (pos <=? p) && (p <? pos + zlen data) then znth 0 data (p - pos) else byte f p).
Definition sresize (f : file) (len : Z) : file := File len (fun p => if p <? len then byte f p else 0).
(** how many pages the bytes [pos, pos + n) touch *)
Definition pages (pos n : Z) : Z := if n <=? 0 then 0 else (pos + n - 1) / PAGE - pos / PAGE + 1.
(** pages touched by the buffers written one after the other *)
Fixpoint need (pos : Z) (bufs : list (list Z)) : Z :=
  match bufs with [] => 0 | b :: r => pages pos (zlen b) + need (pos + zlen b) r end.

(** the state: the file and the position of every handle; the flags do not change *)
Record sstate := SS { sf : file; spos : Z -> Z }.
Definition upd (g : Z -> Z) (h v : Z) : Z -> Z := fun x => if x =? h then v else g x.
Definition readable (fls : Z) : Prop := Z.land fls 1 = 0 \/ Z.land fls 2 <> 0.
Definition writable (fls : Z) : Prop := Z.land fls 1 <> 0 \/ Z.land fls 2 <> 0.
Definition start (f : file) (fls pos : Z) : Z := if Z.land fls 1024 =? 0 then pos else size f.
Definition target (f : file) (pos off : Z) (wh : whence) : Z :=
  match wh with SeekSet => off | SeekCur => pos + off | SeekEnd => size f + off end.

Section S.
Variable M : Z.
Variable CB : Z.
Variable fls : Z -> Z.
(** n bytes of len could be written: all, or fewer because no memory was left *)
Definition amount (k : nat) (pos len n : Z) : Prop := n = len \/ (0 <= n < len /\ Z.of_nat k < pages pos len).
Definition wcode (len n : Z) : Z := if (len >? 0) && (n =? 0) then - 28 else n.

Inductive sstep : sstate -> op -> result -> sstate -> Prop :=
  | SRead f g h len d : readable (fls h) -> d = sread f (g h) len ->
      sstep (SS f g) (Read h len) (Ret (zlen d) [d]) (SS f (upd g h (g h + zlen d)))
  | SPread f g h len off d : readable (fls h) -> d = sread f off len ->
      sstep (SS f g) (Pread h len off) (Ret (zlen d) [d]) (SS f g)
  | SReadBad f g h len : ~ readable (fls h) -> sstep (SS f g) (Read h len) (Ret (-9) []) (SS f g)
  | SPreadBad f g h len off : ~ readable (fls h) -> sstep (SS f g) (Pread h len off) (Ret (-9) []) (SS f g)
  | SWrite f g h buf k p n : writable (fls h) -> p = start f (fls h) (g h) -> amount k p (zlen buf) n ->
      sstep (SS f g) (Write h buf k) (Ret (wcode (zlen buf) n) []) (SS (swrite f p (firstn (Z.to_nat n) buf)) (upd g h (p + n)))
  | SPwrite f g h buf off k p n : writable (fls h) -> p = start f (fls h) off -> amount k p (zlen buf) n ->
      sstep (SS f g) (Pwrite h buf off k) (Ret (wcode (zlen buf) n) []) (SS (swrite f p (firstn (Z.to_nat n) buf)) g)
  | SWriteBad f g h buf k : ~ writable (fls h) -> sstep (SS f g) (Write h buf k) (Ret (-9) []) (SS f g)
  | SPwriteBad f g h buf off k : ~ writable (fls h) -> sstep (SS f g) (Pwrite h buf off k) (Ret (-9) []) (SS f g)
  | SSeek f g h off wh : 0 <= target f (g h) off wh ->
      sstep (SS f g) (Seek h off wh) (Ret (target f (g h) off wh) []) (SS f (upd g h (target f (g h) off wh)))
  | STruncate f g h len : 0 <= len -> sstep (SS f g) (Truncate h len) (Ret 0 []) (SS (sresize f len) g)
  | STruncBad f g h len : len < 0 -> sstep (SS f g) (Truncate h len) (Ret (-22) []) (SS f g)
  | SReadv f g h cbuf iov n outs : readable (fls h) -> 0 <= n -> n = zlen (sread f (g h) n) -> n <= fold_right Z.add 0 iov ->
      (Forall (fun l => l <= CB) iov -> n = zlen (sread f (g h) (fold_right Z.add 0 iov))) ->
      firstn (Z.to_nat n) (concat outs) = sread f (g h) n ->
      sstep (SS f g) (Readv h cbuf iov) (Ret n outs) (SS f (upd g h (g h + n)))
  | SWritev f g h bufs k p data : writable (fls h) -> p = start f (fls h) (g h) -> data = concat bufs ->
      sstep (SS f g) (Writev h (map Some bufs) k) (Ret (zlen data) []) (SS (swrite f p data) (upd g h (p + zlen data))).
Inductive sruns : sstate -> list op -> list result -> sstate -> Prop :=
  | SNil s : sruns s [] [] s
  | SCons s o r s' os rs s'' : sstep s o r s' -> sruns s' os rs s'' -> sruns s (o :: os) (r :: rs) s''.

(** the calls the positive theorem speaks about, in the state [s]: offsets stay below M, no
    seek to a negative position, a shortening only to a multiple of the page size,
    ftruncate
    and the vectored calls with a proper handle, readable buffers and enough memory *)
Definition covered (s : sstate) (o : op) : Prop :=
  let f := sf s in
  match o with
  | Read h len => 0 <= len < M
  | Pread h len off => 0 <= len < M /\ 0 <= off < M
  | Write h buf _ => start f (fls h) (spos s h) + zlen buf < M
  | Pwrite h buf off _ => 0 <= off /\ start f (fls h) off + zlen buf < M
  | Seek h off wh => - M <= off < M /\ 0 <= target f (spos s h) off wh < M
  | Truncate h len => (forall x, h = Some x -> writable (fls x)) /\ - M <= len < M /\ (0 <= len < size f -> len mod 4096 = 0)
  | Readv h _ iov => readable (fls h) /\ Forall (fun l => 0 <= l) iov /\ fold_right Z.add 0 iov < M
  | Writev h iov k => writable (fls h) /\ exists bufs, iov = map Some bufs /\ bufs <> [] /\ Forall (fun b => zlen b <= CB) bufs /\
      start f (fls h) (spos s h) + zlen (concat bufs) < M /\ need (start f (fls h) (spos s h)) bufs <= Z.of_nat k
  end.
(** every call of the history is covered, in the states the specification goes through with these results *)
Fixpoint covers (s : sstate) (os : list op) (rs : list result) : Prop :=
  match os, rs with
  | o :: os, r :: rs => covered s o /\ forall s', sstep s o r s' -> covers s' os rs
  | _, _ => True
  end.
End S.

(** the file an inode stands for *)
Definition byte_of (l : list block) (p : Z) : Z :=
  match find l (p - p mod PAGE) with Some c => c (p mod PAGE) | None => 0 end.
(** the blocks: ascending, aligned *)
Record wf (M : Z) (i : inode) : Prop := {
  wf_file : isdir i = false;
  wf_size : 0 <= fsize i < M;
  wf_asc : StronglySorted Z.lt (map fst (blocks i));
  wf_al : Forall (fun b => 0 <= fst b < M /\ fst b mod PAGE = 0) (blocks i)
}.
(** an open file starts so: a new inode, every position 0 *)
Definition init_state (m : Z) (fls : Z -> Z) : state := St (new_file m) (fun h => Handle 0 (fls h)).
Definition sinit : sstate := SS empty_file (fun _ => 0).

(** every position below the size lies in a block *)
Definition dense (i : inode) : Prop := forall p, 0 <= p < fsize i -> find (blocks i) (p - p mod PAGE) <> None.
(** the next multiple of the page size *)
Definition page_up (n : Z) : Z := (n + 4095) / 4096 * 4096.
Definition file_of (i : inode) : file := File (fsize i) (byte_of (blocks i)).
(** two files that cannot be told apart *)
Definition feq (f g : file) : Prop := size f = size g /\ forall p, 0 <= p -> byte f p = byte g p.
(** examples: handle 1 is open for reading, 2 for writing, the others for both *)
Definition flags2 : Z -> Z := fun h => if h =? 1 then 0 else if h =? 2 then 1 else 2.
Definition fresh := init_state 438 flags2.
