(** What a new program finds on its stack, and what a script means. *)
From Verif Require Import Lib User_Model User_Spec Exec_Model.

(** * Memory of the new program *)
Definition word_at (c : cfg) (m : stk) (a : Z) : Z :=
  le (map (fun k => m (a + Z.of_nat k)) (seq 0 (Z.to_nat (word c)))).
Definition words_at (c : cfg) (m : stk) (a : Z) (l : list Z) : Prop :=
  forall i, 0 <= i < zlen l -> word_at c m (a + word c * i) = znth 0 l i.
Definition str_at (m : stk) (a : Z) (s : list Z) : Prop :=
  (forall k, 0 <= k < zlen s -> m (a + k) = znth 0 s k) /\ m (a + zlen s) = 0.

(** Argument count, arguments, environment and auxiliary vector (page size, end) at [sp];
    the strings are between [sp] and [top] *)
Definition layout (c : cfg) (m : stk) (sp top : Z) (argv env : list (list Z)) : Prop :=
  exists ps es,
    words_at c m sp ([zlen argv] ++ ps ++ [0] ++ es ++ [0] ++ [6; 4096; 0; 0]) /\
    Forall2 (fun p s => str_at m p s /\ sp < p /\ p + zlen s < top) (ps ++ es) (argv ++ env) /\
    zlen ps = zlen argv.

Definition up16 (n : Z) : Z := (n + 15) / 16 * 16.
Definition strs_size (l : list (list Z)) : Z := fold_right (fun s n => up16 (zlen s + 1) + n) 0 l.
Definition used (c : cfg) (argv env : list (list Z)) : Z :=
  strs_size argv + strs_size env + up16 ((7 + zlen argv + zlen env) * word c).

(** An argument of execve: NULL, or an array of strings of the old program *)
Definition given (c : cfg) (rd : mem) (p : Z) (o : option (list (list Z))) : Prop :=
  match o with None => p = 0 | Some l => p <> 0 /\ strings_at c rd p l end.
Definition osize (c : cfg) (o : option (list (list Z))) : Z :=
  match o with None => 0 | Some l => word c * (zlen l + 1) + zlen (flat l) end.
(** Two of them fit the buffer of execve together *)
Definition fit (c : cfg) (argv env : option (list (list Z))) : Prop := osize c argv + osize c env <= 4096.

(** * Scripts *)

(** The first 128 bytes of a script: [k] spaces, the interpreter, its argument *)
Definition line (k : nat) (interp : list Z) (arg : option (list Z)) : list Z :=
  [35; 33] ++ repeat 32 k ++ interp ++ (match arg with None => [] | Some a => 32 :: a end) ++ [10].
Definition script (h : list Z) (interp : list Z) (arg : option (list Z)) : Prop :=
  exists k rest, h = line k interp arg ++ rest /\ zlen h = hsize /\ zlen (line k interp arg) < hsize /\
    interp <> [] /\ Forall (fun b => b <> 0 /\ b <> 10 /\ b <> 32) interp /\
    (forall a, arg = Some a -> Forall (fun b => b <> 0 /\ b <> 10) a).

Definition extra (arg : option (list Z)) : list (list Z) := match arg with None => [] | Some a => [a] end.

(** Executing [p] with [argv], at most [n] scripts deep, starts [q] with [argv'] *)
Inductive starts (load : list Z -> lres) : nat -> list Z -> list (list Z) -> list Z -> list (list Z) -> Prop :=
| starts_elf n p argv : load p = LOk -> zlen argv <= 32 -> starts load n p argv p argv
| starts_script n p a0 argv h interp arg q argv' :
    load p = LErr ENOEXEC h -> script h interp arg -> zlen argv + zlen (extra arg) <= 29 ->
    starts load n interp (interp :: extra arg ++ p :: argv) q argv' ->
    starts load (S n) p (a0 :: argv) q argv'.

(** [n] scripts, one the interpreter of the other *)
Inductive deep (load : list Z -> lres) : nat -> list Z -> list (list Z) -> Prop :=
| deep_one p argv h interp arg : load p = LErr ENOEXEC h -> script h interp arg -> deep load O p argv
| deep_more n p a0 argv h interp arg :
    load p = LErr ENOEXEC h -> script h interp arg -> zlen argv + zlen (extra arg) <= 29 ->
    deep load n interp (interp :: extra arg ++ p :: argv) -> deep load (S n) p (a0 :: argv).

(** The pointers [argv i] lead to the strings, then NULL *)
Definition points (sm : Z -> list Z) (argv : Z -> Z) (strs : list (list Z)) : Prop :=
  (forall i, 0 <= i < zlen strs -> argv i <> 0 /\ sm (argv i) = znth [] strs i) /\ argv (zlen strs) = 0.
(** No pointer leads into the headers of the two levels, [hb 0] and [hb 1] *)
Definition outside (hb : Z -> Z) (p : Z) : Prop :=
  forall lvl, 0 <= lvl < 2 -> p < hb lvl \/ hb lvl + hsize <= p.
(** The headers, apart from each other, and rows of 32 pointers each *)
Definition buffers (hb : Z -> Z) (rows : Z -> list Z) : Prop :=
  (hb 0 + hsize <= hb 1 \/ hb 1 + hsize <= hb 0) /\ forall l, 0 <= l < 2 -> 0 < hb l /\ zlen (rows l) = slots.
