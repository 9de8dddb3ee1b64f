(** String functions: common/string_util.c, include/tilck/common/arch/generic_x86/asm_x86_strings.h.

    Memory maps addresses to bytes; an address without one must not be used ([Fault]).  Loops
    that run to a NUL have fuel ([Fuel]: more iterations than that).  [sg]: char is signed (x86) or not
    (riscv).  Pointers do not wrap; ints hold differences of chars; NULL is 0.  __builtin_memcpy and
    friends for small constant sizes are the compiler's.  The flag DF is clear at entry. *)
From Verif Require Import Lib.

Definition mem := Z -> option Z.
Inductive res (A : Type) := Val (a : A) | Fault | Fuel.
Arguments Val {A} _. Arguments Fault {A}. Arguments Fuel {A}.
Definition bind {A B} (r : res A) (f : A -> res B) : res B :=
  match r with Val a => f a | Fault => Fault | Fuel => Fuel end.
Notation "x <- r ;; k" := (bind r (fun x => k)) (at level 61, r at next level, right associativity).
Definition ld (m : mem) (p : Z) : res Z := match m p with Some b => Val b | None => Fault end.
Definition sto (m : mem) (p b : Z) : res mem :=
  match m p with Some _ => Val (fun x => if x =? p then Some b else m x) | None => Fault end.
(** char to int *)
Definition ch (sg : bool) (b : Z) : Z := if sg && (128 <=? b) then b - 256 else b.

(** strcmp, string_util.c:49-56 *)
Fixpoint strcmp (sg : bool) (fuel : nat) (m : mem) (p q : Z) : res Z :=
  match fuel with
  | O => Fuel
  | S fuel =>
      a <- ld m p ;; b <- ld m q ;;
      if negb (a =? 0) && (a =? b) then strcmp sg fuel m (p + 1) (q + 1) else Val (ch sg a - ch sg b)
  end.
(** strncmp, 58-67; [n]: what is left of n *)
Fixpoint strncmp (sg : bool) (n : nat) (m : mem) (p q : Z) : res Z :=
  match n with
  | O => Val 0
  | S n =>
      a <- ld m p ;; b <- ld m q ;;
      if negb (a =? 0) && (a =? b) then strncmp sg n m (p + 1) (q + 1) else Val (ch sg a - ch sg b)
  end.
(** memcmp, 69-80 *)
Fixpoint memcmp (sg : bool) (n : nat) (m : mem) (p q : Z) : res Z :=
  match n with
  | O => Val 0
  | S n =>
      a <- ld m p ;; b <- ld m q ;;
      if a =? b then memcmp sg n m (p + 1) (q + 1) else Val (ch sg a - ch sg b)
  end.
(** tolower, string_util.h:66-68; stricmp, string_util.c:197-204 *)
Definition tolower (c : Z) : Z := if (65 <=? c) && (c <=? 90) then c + 32 else c.
Fixpoint stricmp (sg : bool) (fuel : nat) (m : mem) (p q : Z) : res Z :=
  match fuel with
  | O => Fuel
  | S fuel =>
      a <- ld m p ;; b <- ld m q ;;
      if negb (a =? 0) && (tolower (ch sg a) =? tolower (ch sg b)) then stricmp sg fuel m (p + 1) (q + 1)
      else Val (tolower (ch sg a) - tolower (ch sg b))
  end.

(** strlen, 269-276 and asm_x86_strings.h:16-76 *)
Fixpoint strlen (fuel : nat) (m : mem) (p : Z) : res Z :=
  match fuel with
  | O => Fuel
  | S fuel => a <- ld m p ;; if a =? 0 then Val 0 else (k <- strlen fuel m (p + 1) ;; Val (k + 1))
  end.
(** strnlen, 329-338: the byte is read before the count is compared *)
Fixpoint strnlen (n : nat) (m : mem) (p : Z) : res Z :=
  a <- ld m p ;;
  if a =? 0 then Val 0
  else match n with O => Val 0 | S n => k <- strnlen n m (p + 1) ;; Val (k + 1) end.
(** memchr, 340-352; [c] as u8 *)
Fixpoint memchr (n : nat) (m : mem) (p c : Z) : res Z :=
  match n with
  | O => Val 0
  | S n => a <- ld m p ;; if c =? a then Val p else memchr n m (p + 1) c
  end.
(** strchr, 367-374; [c] as char *)
Fixpoint strchr (fuel : nat) (m : mem) (p c : Z) : res Z :=
  match fuel with
  | O => Fuel
  | S fuel => a <- ld m p ;; if a =? c then Val p else if a =? 0 then Val 0 else strchr fuel m (p + 1) c
  end.
(** strrchr, 354-365: [k] bytes before the end *)
Fixpoint strrchr_loop (k : nat) (m : mem) (p c : Z) : res Z :=
  a <- ld m (p + Z.of_nat k) ;;
  match k with
  | O => Val (if a =? c then p else 0)
  | S k' => if a =? c then Val (p + Z.of_nat k) else strrchr_loop k' m p c
  end.
Definition strrchr (fuel : nat) (m : mem) (p c : Z) : res Z :=
  n <- strlen fuel m p ;; strrchr_loop (Z.to_nat n) m p c.
(** strstr, 82-103 *)
Fixpoint strstr_loop (sg : bool) (fuel : nat) (m : mem) (h q sl nl : Z) : res Z :=
  match fuel with
  | O => Fuel
  | S fuel =>
      a <- ld m h ;;
      if (a =? 0) || (sl <? nl) then Val 0
      else b <- ld m q ;;
           if a =? b then (c <- strncmp sg (Z.to_nat nl) m h q ;; if c =? 0 then Val h else strstr_loop sg fuel m (h + 1) q (sl - 1) nl)
           else strstr_loop sg fuel m (h + 1) q (sl - 1) nl
  end.
Definition strstr (sg : bool) (fuel : nat) (m : mem) (h q : Z) : res Z :=
  a <- ld m h ;;
  if a =? 0 then Val 0
  else b <- ld m q ;;
       if b =? 0 then Val 0
       else sl <- strlen fuel m h ;; nl <- strlen fuel m q ;; strstr_loop sg fuel m h q sl nl.

(** strcpy, 110-119 *)
Fixpoint strcpy (fuel : nat) (m : mem) (d s : Z) : res mem :=
  match fuel with
  | O => Fuel
  | S fuel =>
      a <- ld m s ;;
      if a =? 0 then sto m d 0 else (m <- sto m d a ;; strcpy fuel m (d + 1) (s + 1))
  end.
(** strncpy, 126-140: the byte is read before the count is compared; one NUL behind a shorter string *)
Fixpoint strncpy (n : nat) (m : mem) (d s : Z) : res mem :=
  a <- ld m s ;;
  match n with
  | O => Val m
  | S n => if a =? 0 then sto m d 0 else (m <- sto m d a ;; strncpy n m (d + 1) (s + 1))
  end.
(** strcat, 147-150 *)
Definition strcat (fuel : nat) (m : mem) (d s : Z) : res mem :=
  n <- strlen fuel m d ;; strcpy fuel m (d + n) s.
(** strncat, 157-170 *)
Fixpoint strncat_loop (n : nat) (m : mem) (d s : Z) : res mem :=
  a <- ld m s ;;
  match n with
  | O => sto m d 0
  | S n => if a =? 0 then sto m d 0 else (m <- sto m d a ;; strncat_loop n m (d + 1) (s + 1))
  end.
Definition strncat (fuel n : nat) (m : mem) (d s : Z) : res mem :=
  k <- strlen fuel m d ;; strncat_loop n m (d + k) s.

(** memcpy of bytes, 279-287; rep movsb *)
Fixpoint movsb (n : nat) (m : mem) (d s : Z) : res mem :=
  match n with
  | O => Val m
  | S n => a <- ld m s ;; m <- sto m d a ;; movsb n m (d + 1) (s + 1)
  end.
(** rep movsl: four bytes are read, then four are written *)
Fixpoint movsl (n : nat) (m : mem) (d s : Z) : res mem :=
  match n with
  | O => Val m
  | S n =>
      a <- ld m s ;; b <- ld m (s + 1) ;; c <- ld m (s + 2) ;; e <- ld m (s + 3) ;;
      m <- sto m d a ;; m <- sto m (d + 1) b ;; m <- sto m (d + 2) c ;; m <- sto m (d + 3) e ;;
      movsl n m (d + 4) (s + 4)
  end.
(** std; rep movsb: from the last byte down; [d], [s]: first bytes *)
Fixpoint movsb_down (n : nat) (m : mem) (d s : Z) : res mem :=
  match n with
  | O => Val m
  | S n => a <- ld m (s + Z.of_nat n) ;; m <- sto m (d + Z.of_nat n) a ;; movsb_down n m d s
  end.
(** memcpy, asm_x86_strings.h:79-138 *)
Definition memcpy_x86 (n : Z) (m : mem) (d s : Z) : res mem :=
  m <- movsl (Z.to_nat (n / 4)) m d s ;; movsb (Z.to_nat (n mod 4)) m (d + n / 4 * 4) (s + n / 4 * 4).
(** memcpy32, 140-151; its ASSERT *)
Definition memcpy32_x86 (n : Z) (m : mem) (d s : Z) : res mem := movsl (Z.to_nat n) m d s.
Definition memcpy32_assert (n d s : Z) : bool := (d <=? s) || (s + n <=? d).
(** memmove, 154-191 *)
Definition memmove_x86 (n : Z) (m : mem) (d s : Z) : res mem :=
  if (d <=? s) || (s + n <=? d) then memcpy_x86 n m d s else movsb_down (Z.to_nat n) m d s.
(** memmove, string_util.c:290-310 *)
Definition memmove_c (n : Z) (m : mem) (d s : Z) : res mem :=
  if d <=? s then movsb (Z.to_nat n) m d s else movsb_down (Z.to_nat n) m d s.
(** memset, string_util.c:315-322, asm_x86_strings.h:196-207 *)
Fixpoint memset (n : nat) (m : mem) (d c : Z) : res mem :=
  match n with
  | O => Val m
  | S n => m <- sto m d (c mod 256) ;; memset n m (d + 1) c
  end.
(** rep stosl; memset32, asm_x86_strings.h:225-233, little endian *)
Fixpoint memset32 (n : nat) (m : mem) (d c : Z) : res mem :=
  match n with
  | O => Val m
  | S n =>
      m <- sto m d (c mod 256) ;; m <- sto m (d + 1) (c / 256 mod 256) ;;
      m <- sto m (d + 2) (c / 65536 mod 256) ;; m <- sto m (d + 3) (c / 16777216 mod 256) ;; memset32 n m (d + 4) c
  end.
(** rep stosw; memset16, 212-220 *)
Fixpoint memset16 (n : nat) (m : mem) (d c : Z) : res mem :=
  match n with
  | O => Val m
  | S n => m <- sto m d (c mod 256) ;; m <- sto m (d + 1) (c / 256 mod 256) ;; memset16 n m (d + 2) c
  end.
(** bzero, 235-243 *)
Definition bzero_x86 (n : Z) (m : mem) (d : Z) : res mem :=
  m <- memset32 (Z.to_nat (n / 4)) m d 0 ;; memset (Z.to_nat (n mod 4)) m (d + n / 4 * 4) 0.
(** isxdigit, string_util.c:176-179; digit_to_val: 128 bytes at 10-44.  [None]: outside the array *)
Definition isxdigit (c : Z) : option bool :=
  if c <? 128
  then if 0 <=? c
       then Some (((48 <=? c) && (c <=? 57)) || ((65 <=? c) && (c <=? 70)) || ((97 <=? c) && (c <=? 102)))
       else None
  else Some false.
