(** Model of the checks and copies of user memory: include/tilck/kernel/user.h:7-10 and
    kernel/user.c:19-60 and 98-300.

    User memory is a function from addresses to bytes; [None]: reading faults
    (asm_user_copy_fault is reached and arch_user_copy returns 1).  The process does not
    change it during a call.  arch_user_copy is a copy byte by byte, that stops at the
    first byte that faults (the assembly code copies words: how much it stores before a
    fault is not used by the callers). *)
From Verif Require Import Lib.

(** sizeof(void * ) and BASE_VA, CMakeLists.txt:848-892 *)
Record cfg := Cfg { word : Z; base : Z }.
Definition i386 := Cfg 4 3221225472.
Definition x86_64 := Cfg 8 17592186044416.
Definition riscv64 := Cfg 8 137438953472.
Definition modulus (c : cfg) : Z := 2 ^ (8 * word c).

(** user_out_of_range, include/tilck/kernel/user.h:7-10 *)
Definition out_of_range (c : cfg) (p n : Z) : bool :=
  (p =? 0) || (base c <? (p + n) mod modulus c).

Definition mem := Z -> option Z.
(** arch_user_copy, reading: the bytes copied, and whether all of them were *)
Fixpoint ucopy (c : cfg) (rd : mem) (p : Z) (n : nat) : list Z * bool :=
  match n with
  | O => ([], true)
  | S n => match rd p with
           | None => ([], false)
           | Some b => let '(l, ok) := ucopy c rd ((p + 1) mod modulus c) n in (b :: l, ok)
           end
  end.
(** copy_from_user, kernel/user.c:19-34 *)
Definition EFAULT := -14.
Definition copy_from_user (c : cfg) (rd : mem) (p n : Z) : Z * list Z :=
  if out_of_range c p n then (EFAULT, [])
  else let '(l, ok) := ucopy c rd p (Z.to_nat n) in (if ok then 0 else EFAULT, l).
(** copy_to_user, kernel/user.c:36-60: the addresses written; [wr]: which can be *)
Fixpoint ustore (c : cfg) (wr : Z -> bool) (p : Z) (n : nat) : list Z * bool :=
  match n with
  | O => ([], true)
  | S n => if wr p then let '(l, ok) := ustore c wr ((p + 1) mod modulus c) n in (p :: l, ok) else ([], false)
  end.
Definition copy_to_user (c : cfg) (wr : Z -> bool) (p n : Z) : Z * list Z :=
  if out_of_range c p n then (EFAULT, [])
  else let '(l, ok) := ustore c wr p (Z.to_nat n) in (if ok then 0 else EFAULT, l).

(** internal_copy_user_str, kernel/user.c:122-183: result, bytes stored in the
    destination, *written_ptr, ranges read.  [room]: dest_end - d; [acc]: [dest, d) *)
Fixpoint find0 (l : list Z) : option Z :=
  match l with
  | [] => None
  | b :: l => if b =? 0 then Some 0 else match find0 l with Some i => Some (i + 1) | None => None end
  end.
Fixpoint copy_str (c : cfg) (rd : mem) (fuel : nat) (p room : Z) (acc : list Z) (tr : list (Z * Z)) : option (Z * list Z * Z * list (Z * Z)) :=
  match fuel with
  | O => None
  | S fuel =>
      if room <=? 0 then Some (1, acc, 0, tr)
      else if base c <=? p then Some (-1, acc, 0, tr)
      else
        let page_room := 4096 - Z.land p 4095 in
        let user_room := base c - p in
        let avail := Z.min room (Z.min page_room user_room) in
        let chunk := Z.min avail 64 in
        let '(l, ok) := ucopy c rd p (Z.to_nat chunk) in
        let tr := tr ++ [(p, chunk)] in
        if ok then
          match find0 l with
          | Some i => Some (0, acc ++ l, zlen acc + i + 1, tr)
          | None => copy_str c rd fuel (p + chunk) (room - chunk) (acc ++ l) tr
          end
        else Some (-1, acc ++ l, 0, tr)
  end.
Definition copy_str_from_user (c : cfg) (rd : mem) (p max : Z) : option (Z * list Z * Z * list (Z * Z)) :=
  copy_str c rd (S (Z.to_nat max)) p max [] [].

(** A pointer read with arch_user_copy *)
Fixpoint le (l : list Z) : Z := match l with [] => 0 | b :: l => b + 256 * le l end.
Definition read_ptr (c : cfg) (rd : mem) (a : Z) : option Z :=
  let '(l, ok) := ucopy c rd a (Z.to_nat (word c)) in if ok then Some (le l) else None.

(** internal_copy_str_array_from_user, kernel/user.c:213-287.  The first loop: *)
Inductive count := Count (argc : Z) | Fault | OutOfFuel.
Fixpoint count_args (c : cfg) (rd : mem) (fuel : nat) (arr argc : Z) : count :=
  match fuel with
  | O => OutOfFuel
  | S fuel =>
      let a := (arr + word c * argc) mod modulus c in
      if out_of_range c a (word c) then Fault
      else match read_ptr c rd a with
           | None => Fault
           | Some u => if u =? 0 then Count argc else count_args c rd fuel arr (argc + 1)
           end
  end.
(** The second loop; [off]: after_ptrs_arr - dest.  Result, offsets stored in the array of
    pointers, bytes kept after it *)
Fixpoint copy_args (c : cfg) (rd : mem) (n : nat) (arr i off max : Z) : option (Z * list Z * list Z) :=
  match n with
  | O => Some (0, [], [])
  | S n =>
      match read_ptr c rd ((arr + word c * i) mod modulus c) with
      | None => Some (-1, [off], [])
      | Some u =>
          match copy_str_from_user c rd u (max - off) with
          | None => None
          | Some (rc, d, w, _) =>
              if rc =? 0 then
                match copy_args c rd n arr (i + 1) (off + w) max with
                | None => None
                | Some (rc, ptrs, data) => Some (rc, off :: ptrs, firstn (Z.to_nat w) d ++ data)
                end
              else Some (rc, [off], [])
          end
      end
  end.
(** [Wild a]: the NULL pointer is stored at [a], outside the buffer (what follows is not
    modelled).  The comparison is one of pointers: `dest_arr + argc` wraps.  argc is an
    int; it does not (it would need 2^31 pointers in user space, 16 GB) *)
Inductive arr_res := Res (rc argc : Z) (ptrs data : list Z) (written : Z) | Wild (a : Z) | Loop.
Definition copy_str_array (c : cfg) (rd : mem) (fuel : nat) (dest arr max : Z) : arr_res :=
  match count_args c rd fuel arr 0 with
  | OutOfFuel => Loop
  | Fault => Res (-1) 0 [] [] 0
  | Count argc =>
      let a := (dest + word c * argc) mod modulus c in
      if dest + max - word c <? a then Res 1 argc [] [] 0
      else if max - word c <? word c * argc then Wild a
      else
        match copy_args c rd (Z.to_nat argc) arr 0 (word c * (argc + 1)) max with
        | None => Loop
        | Some (rc, ptrs, data) => Res rc argc ptrs data (word c * (argc + 1) + zlen data)
        end
  end.
