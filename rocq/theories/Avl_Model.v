(** Model of the intrusive AVL tree: kernel/bintree/*, include/tilck/kernel/bintree.h
    and the explicit-stack macros of include/tilck/common/norec.h.

    A tree of pointers becomes an inductive tree whose nodes carry the stored
    u16 height.  The explicit stack of references built by
    AVL_BUILD_PATH_TO_OBJ becomes a list of frames (innermost first): popping a
    reference and balancing what it points to is plugging the current subtree
    into the innermost frame and balancing the result.  [None] is the outcome
    of a push past the end of the fixed-size stack, of a NULL dereference or of
    a failed ASSERT. *)
From Verif Require Import Lib.

(** include/tilck/kernel/bintree.h:25 *)
Definition MAX_TREE_HEIGHT : Z := 32.

Definition u16 (x : Z) : Z := x mod 65536.

(** bintree_insrem_ptr_cmp and bintree_find_ptr_cmp, avl_bintree.c:199-212: a
    subtraction of two longs, [w] bits wide; the kernel is built with -fwrapv,
    so it wraps. *)
Definition long_sub (w : Z) (a b : Z) : Z :=
  let d := (a - b) mod 2 ^ w in if d <? 2 ^ (w - 1) then d else d - 2 ^ w.

Section Avl.
  Context {A K : Type}.
  Variable key : A -> K.
  (** CMP(obj, value): negative, zero or positive (avl_insert.c.h:5-9) *)
  Variable cmp : K -> K -> Z.

  (** struct bintree_node, include/tilck/kernel/bintree.h:27-31 *)
  Inductive tree :=
  | E
  | N (h : Z) (l : tree) (x : A) (r : tree).

  (** HEIGHT, avl_int.h:65 *)
  Definition height (t : tree) : Z := match t with E => -1 | N h _ _ _ => h end.

  (** update_height, avl_int.h:67-73: (u16)MAX(..) + 1 stored into a u16 *)
  Definition upd (l : tree) (x : A) (r : tree) : tree :=
    N (u16 (u16 (Z.max (height l) (height r)) + 1)) l x r.

  (** rotate_left_child, avl_bintree.c:15-34 *)
  Definition rotate_left_child (t : tree) : option tree :=
    match t with
    | N _ (N _ ll y lr) x r => Some (upd ll y (upd lr x r))
    | _ => None
    end.

  (** rotate_right_child, avl_bintree.c:46-65 *)
  Definition rotate_right_child (t : tree) : option tree :=
    match t with
    | N _ l x (N _ rl y rr) => Some (upd (upd l x rl) y rr)
    | _ => None
    end.

  (** UPDATE_HEIGHT on the root of a subtree, avl_bintree.c:108 *)
  Definition upd_root (t : tree) : option tree :=
    match t with E => None | N _ l x r => Some (upd l x r) end.

  (** balance, avl_bintree.c:77-110; the flag is the returned bool *)
  Definition balance (t : tree) : option (tree * bool) :=
    match t with
    | E => Some (E, false)
    | N h l x r =>
        let bf := height l - height r in
        let rotated :=
          if 1 <? bf then
            match l with
            | E => None
            | N _ ll _ lr =>
                if height lr <=? height ll then rotate_left_child t
                else match rotate_right_child l with
                     | None => None
                     | Some l' => rotate_left_child (N h l' x r)
                     end
            end
          else if bf <? -1 then
            match r with
            | E => None
            | N _ rl _ rr =>
                if height rl <=? height rr then rotate_right_child t
                else match rotate_left_child r with
                     | None => None
                     | Some r' => rotate_right_child (N h l x r')
                     end
            end
          else Some t in
        match rotated with
        | None => None
        | Some t1 =>
            match upd_root t1 with
            | None => None
            | Some t2 => Some (t2, negb (height t2 =? h))
            end
        end
    end.

  (** One traversed reference: we went to the left or to the right child *)
  Inductive frame :=
  | FL (h : Z) (x : A) (r : tree)
  | FR (h : Z) (l : tree) (x : A).

  Definition plug (f : frame) (t : tree) : tree :=
    match f with FL h x r => N h t x r | FR h l x => N h l x t end.

  Fixpoint plug_all (fs : list frame) (t : tree) : tree :=
    match fs with [] => t | f :: fs' => plug_all fs' (plug f t) end.

  (** AVL_BUILD_PATH_TO_OBJ, avl_int.h:98-114, without the stack check *)
  Fixpoint descend (t : tree) (k : K) (fs : list frame) : list frame * tree :=
    match t with
    | E => (fs, E)
    | N h l x r =>
        let c := cmp (key x) k in
        if c =? 0 then (fs, t)
        else if c <? 0 then descend r k (FR h l x :: fs)
        else descend l k (FL h x r :: fs)
    end.

  (** The same with the check that all the references pushed (one per frame
      plus the last) fit the stack of MAX_TREE_HEIGHT slots *)
  Definition build_path (t : tree) (k : K) : option (list frame * tree) :=
    let '(fs, s) := descend t k [] in
    if zlen fs + 1 <=? MAX_TREE_HEIGHT then Some (fs, s) else None.

  (** bintree_find_internal, avl_find.c.h:18-38 *)
  Fixpoint find (t : tree) (k : K) : option A :=
    match t with
    | E => None
    | N _ l x r =>
        let c := cmp (key x) k in
        if c =? 0 then Some x
        else if c <? 0 then find r k else find l k
    end.

  (** The balance loop of insert with its early exit, avl_insert.c.h:63-67 *)
  Fixpoint unwind_ins (fs : list frame) (t : tree) : option tree :=
    match fs with
    | [] => Some t
    | f :: fs' =>
        match balance (plug f t) with
        | None => None
        | Some (t', true) => unwind_ins fs' t'
        | Some (t', false) => Some (plug_all fs' t')
        end
    end.

  (** bintree_insert_internal, avl_insert.c.h:11-70.  The new object's node is
      freshly initialised (bintree_node_init, bintree.h:33-40). *)
  Definition insert (t : tree) (x : A) : option (tree * bool) :=
    match t with
    | E => Some (N 0 E x E, true)
    | N _ _ _ _ =>
        match build_path t (key x) with
        | None => None
        | Some (_, N _ _ _ _) => Some (t, false)
        | Some (fs, E) =>
            match unwind_ins fs (N 0 E x E) with
            | None => None
            | Some t' => Some (t', true)
            end
        end
    end.

  (** `while (stack_size > 0) BALANCE(STACK_POP())`: balance the current
      subtree, then every enclosing one; avl_bintree.c:170-171 *)
  Fixpoint unwind_bal (fs : list frame) (t : tree) : option tree :=
    match balance t with
    | None => None
    | Some (t', _) =>
        match fs with
        | [] => Some t'
        | f :: fs' => unwind_bal fs' (plug f t')
        end
    end.

  (** The walk to the successor, avl_bintree.c:129-138: frames traversed inside
      the right subtree, the successor's stored height, object and right child *)
  Fixpoint succ_path (t : tree) (gs : list frame)
    : option (list frame * Z * A * tree) :=
    match t with
    | E => None
    | N h E x r => Some (gs, h, x, r)
    | N h l x r => succ_path l (FL h x r :: gs)
    end.

  (** bintree_remove_internal_aux, avl_bintree.c:117-172 *)
  Definition remove_aux (fs : list frame) (h : Z) (l : tree) (r : tree)
    : option tree :=
    match l, r with
    | N _ _ _ _, N _ _ _ _ =>
        match succ_path r [] with
        | None => None
        | Some (gs, sh, sx, sr) =>
            if zlen fs + 1 + (zlen gs + 1) <=? MAX_TREE_HEIGHT then
              match unwind_bal gs sr with
              | None => None
              | Some r' => unwind_bal fs (N sh l sx r')
              end
            else None
        end
    | E, _ => unwind_bal fs r
    | _, E => unwind_bal fs l
    end.

  (** bintree_remove_internal, avl_remove.c.h:11-37 *)
  Definition remove (t : tree) (k : K) : option (tree * option A) :=
    match build_path t k with
    | None => None
    | Some (_, E) => Some (t, None)
    | Some (fs, N h l x r) =>
        match remove_aux fs h l r with
        | None => None
        | Some t' => Some (t', Some x)
        end
    end.

  (** bintree_get_first_obj_internal, avl_bintree.c:175-185 *)
  Fixpoint get_first (t : tree) : option A :=
    match t with
    | E => None
    | N _ E x _ => Some x
    | N _ l _ _ => get_first l
    end.

  (** bintree_get_last_obj_internal, avl_bintree.c:187-197 *)
  Fixpoint get_last (t : tree) : option A :=
    match t with
    | E => None
    | N _ _ x E => Some x
    | N _ _ _ r => get_last r
    end.

  (** ** The non-recursive in-order visit, avl_bintree.c:229-265 with the macros
      of norec.h:45-115.  The shadow stack is an array of MAX_TREE_HEIGHT slots
      (return label, argument); slots are read and written with a bounds
      check. *)
  Inductive label :=
  | LNull           (* no return address *)
  | LTop            (* after the call at line 242 *)
  | LLeft           (* after the call at line 253 *)
  | LRight          (* after the call at line 259 *)
  | LYield.         (* after the yield at line 325, resumable visit only *)

  Local Notation slot := (label * tree)%type.

  Record vstate (S : Type) := mk_v {
    v_stack : list slot; v_size : Z; v_acc : S
  }.
  Arguments mk_v {S}. Arguments v_stack {S}. Arguments v_size {S}. Arguments v_acc {S}.

  (** SIMULATE_CALL1, norec.h:105-115: the store at [size++] and then the store
      of a NULL return address in the slot above *)
  Definition sim_call (st : list slot) (size : Z) (lb : label) (arg : tree)
    : option (list slot * Z) :=
    match mem_write st size [(lb, arg)] with
    | None => None
    | Some st1 =>
        match mem_read st1 (size + 1) 1 with
        | Some [(_, a)] =>
            match mem_write st1 (size + 1) [(LNull, a)] with
            | Some st2 => Some (st2, size + 1)
            | None => None
            end
        | _ => None
        end
    end.

  (** Result of one iteration of the loop body *)
  Inductive viter (S : Type) :=
  | VCont (v : vstate S)
  | VStop (r : Z) (acc : S)      (* `return r` at line 256 *)
  | VUB.
  Arguments VCont {S}. Arguments VStop {S}. Arguments VUB {S}.

  Section Visit.
    Context {S : Type}.
    (** The callback may have state; a non-zero result stops the visit. *)
    Variable cb : S -> A -> S * Z.

    (** lines 261 with norec.h:83-88 *)
    Definition v_ret (st : list slot) (size : Z) (acc : S) : viter S :=
      VCont (mk_v st (size - 1) acc).

    (** lines 258-261 *)
    Definition v_right (rev : bool) (st : list slot) (size : Z) (acc : S)
               (l r : tree) : viter S :=
      match (if rev then l else r) with
      | E => v_ret st size acc
      | t => match sim_call st size LRight t with
             | Some (st', size') => VCont (mk_v st' size' acc)
             | None => VUB
             end
      end.

    (** lines 255-261 *)
    Definition v_self (rev : bool) (st : list slot) (size : Z) (acc : S)
               (l : tree) (x : A) (r : tree) : viter S :=
      let '(acc', rc) := cb acc x in
      if negb (rc =? 0) then VStop rc acc'
      else v_right rev st size acc' l r.

    (** one iteration, lines 246-261, given [size > 0] *)
    Definition v_iter (rev : bool) (v : vstate S) : viter S :=
      let st := v_stack v in let size := v_size v in
      match mem_read st (size - 1) 1, mem_read st size 1 with
      | Some [(_, N _ l x r)], Some [(addr, _)] =>
          match addr with
          | LNull =>
              match (if rev then r else l) with
              | E => v_self rev st size (v_acc v) l x r
              | t => match sim_call st size LLeft t with
                     | Some (st', size') => VCont (mk_v st' size' (v_acc v))
                     | None => VUB
                     end
              end
          | LLeft => v_self rev st size (v_acc v) l x r
          | LRight => v_ret st size (v_acc v)
          | LTop | LYield => VUB
          end
      | _, _ => VUB
      end.

    (** NOREC_LOOP_BEGIN/END: iterate while size > 0; [fuel] bounds the number
        of iterations, [VUB] when it runs out *)
    Fixpoint v_loop (fuel : nat) (rev : bool) (v : vstate S) : viter S :=
      if v_size v =? 0 then VStop 0 (v_acc v)
      else
        match fuel with
        | O => VUB
        | Datatypes.S f =>
            match v_iter rev v with
            | VCont v' => v_loop f rev v'
            | res => res
            end
        end.

    (** bintree_in_order_visit_internal, lines 229-265.  INIT_SHADOW_STACK
        zeroes the array, norec.h:73-77. *)
    Definition visit (fuel : nat) (rev : bool) (t : tree) (acc : S) : viter S :=
      match t with
      | E => VStop 0 acc
      | _ =>
          let zst := repeat (LNull, E) (Z.to_nat MAX_TREE_HEIGHT) in
          match sim_call zst 0 LTop t with
          | None => VUB
          | Some (st, size) => v_loop fuel rev (mk_v st size acc)
          end
      end.
  End Visit.

  (** ** The resumable visit, avl_bintree.c:267-334 *)

  (** struct bintree_walk_ctx: stack, stack_size, next_called, root object and
      direction (bintree.h:44-51) *)
  Record wctx := mk_w {
    w_stack : list slot; w_size : Z; w_called : bool; w_obj : tree; w_rev : bool
  }.

  (** bintree_in_order_visit_start_internal, lines 274-288 *)
  Definition walk_start (t : tree) (rev : bool) : wctx :=
    mk_w (repeat (LNull, E) (Z.to_nat MAX_TREE_HEIGHT)) 0 false t rev.

  Inductive witer :=
  | WCont (st : list slot) (size : Z)
  | WYield (x : A) (st : list slot) (size : Z)
  | WUB.

  (** SIMULATE_YIELD, norec.h:90-96: the label goes in the slot above *)
  Definition w_yield (st : list slot) (size : Z) (x : A) : witer :=
    match mem_read st size 1 with
    | Some [(_, a)] =>
        match mem_write st size [(LYield, a)] with
        | Some st' => WYield x st' size
        | None => WUB
        end
    | _ => WUB
    end.

  (** lines 327-330 *)
  Definition w_right (rev : bool) (st : list slot) (size : Z) (l r : tree) : witer :=
    match (if rev then l else r) with
    | E => WCont st (size - 1)
    | t => match sim_call st size LRight t with
           | Some (st', size') => WCont st' size'
           | None => WUB
           end
    end.

  (** One iteration of the loop, lines 316-330, given [size > 0] *)
  Definition w_iter (rev : bool) (st : list slot) (size : Z) : witer :=
    match mem_read st (size - 1) 1, mem_read st size 1 with
    | Some [(_, N _ l x r)], Some [(addr, _)] =>
        match addr with
        | LNull =>
            match (if rev then r else l) with
            | E => w_yield st size x
            | t => match sim_call st size LLeft t with
                   | Some (st', size') => WCont st' size'
                   | None => WUB
                   end
            end
        | LLeft => w_yield st size x
        | LYield => w_right rev st size l r
        | LRight => WCont st (size - 1)
        | LTop => WUB
        end
    | _, _ => WUB
    end.

  Fixpoint w_loop (fuel : nat) (rev : bool) (st : list slot) (size : Z)
    : option (option A * list slot * Z) :=
    if size =? 0 then Some (None, st, size)
    else
      match fuel with
      | O => None
      | S f =>
          match w_iter rev st size with
          | WCont st' size' => w_loop f rev st' size'
          | WYield x st' size' => Some (Some x, st', size')
          | WUB => None
          end
      end.

  (** bintree_in_order_visit_next, lines 290-334; [None] is undefined
      behaviour or lack of fuel, the inner option is the returned pointer *)
  Definition walk_next (fuel : nat) (w : wctx) : option (option A * wctx) :=
    let entry :=
      if w_called w then Some (w_stack w, w_size w)
      else match w_obj w with
           | E => Some (w_stack w, w_size w)
           | t => sim_call (w_stack w) (w_size w) LTop t
           end in
    match entry with
    | None => None
    | Some (st, size) =>
        match w_loop fuel (w_rev w) st size with
        | None => None
        | Some (o, st', size') =>
            Some (o, mk_w st' size' true (w_obj w) (w_rev w))
        end
    end.

  (** The results of [k] successive calls of next *)
  Fixpoint walk_results (fuel : nat) (k : nat) (w : wctx) : option (list (option A)) :=
    match k with
    | O => Some []
    | S k' =>
        match walk_next fuel w with
        | None => None
        | Some (o, w') =>
            match walk_results fuel k' w' with
            | None => None
            | Some os => Some (o :: os)
            end
        end
    end.

  (** Operations for histories *)
  Inductive bt_op := BIns (x : A) | BRem (k : K) | BFind (k : K).
  Inductive bt_out := BBool (b : bool) | BObj (o : option A).

  Definition bt_step (t : tree) (o : bt_op) : option (tree * bt_out) :=
    match o with
    | BIns x => match insert t x with
                | Some (t', b) => Some (t', BBool b) | None => None end
    | BRem k => match remove t k with
                | Some (t', r) => Some (t', BObj r) | None => None end
    | BFind k => Some (t, BObj (find t k))
    end.

  Fixpoint bt_run (t : tree) (ops : list bt_op) : option (tree * list bt_out) :=
    match ops with
    | [] => Some (t, [])
    | o :: os =>
        match bt_step t o with
        | None => None
        | Some (t', x) =>
            match bt_run t' os with
            | None => None
            | Some (t'', xs) => Some (t'', x :: xs)
            end
        end
    end.
End Avl.

Arguments E {A}. Arguments N {A}.
Arguments FL {A}. Arguments FR {A}.
Arguments BIns {A K}. Arguments BRem {A K}. Arguments BFind {A K}.
Arguments mk_v {A S}. Arguments v_stack {A S}. Arguments v_size {A S}. Arguments v_acc {A S}.
Arguments VCont {A S}. Arguments VStop {A S}. Arguments VUB {A S}.
