(** Specification of path normalisation: a path is a list of components; the
    current location is a stack of names. *)
From Verif Require Import Lib.

(** Split at '/' (47) *)
Fixpoint components (p : list Z) : list (list Z) :=
  match p with
  | [] => [[]]
  | c :: r =>
      if c =? 47 then [] :: components r
      else match components r with
           | h :: t => (c :: h) :: t
           | [] => [[c]]
           end
  end.

(** One step of the walk: "" and "." stay, ".." goes up (not above the root),
    anything else goes down *)
Definition step (loc : list (list Z)) (c : list Z) : list (list Z) :=
  if list_eq_dec Z.eq_dec c [] then loc
  else if list_eq_dec Z.eq_dec c [46] then loc
  else if list_eq_dec Z.eq_dec c [46; 46] then removelast loc
  else loc ++ [c].

Definition walk (loc : list (list Z)) (cs : list (list Z)) : list (list Z) :=
  fold_left step cs loc.

(** The location a path leads to, from the location [cwd] *)
Definition destination (cwd : list (list Z)) (path : list Z) : list (list Z) :=
  walk (if hd 0 path =? 47 then [] else cwd) (components path).

(** Names: not empty, not "." or "..", no '/' *)
Definition name (c : list Z) : Prop :=
  c <> [] /\ c <> [46] /\ c <> [46; 46] /\ ~ In 47 c /\ ~ In 0 c.

(** "/a/b/" *)
Definition dir_text (loc : list (list Z)) : list Z :=
  47 :: concat (map (fun c => c ++ [47]) loc).

(** "/a/b", or "/a/b/" when [slash]; the root is "/" *)
Definition path_text (loc : list (list Z)) (slash : bool) : list Z :=
  match loc with
  | [] => [47]
  | _ => if slash then dir_text loc else removelast (dir_text loc)
  end.

(** No "." or ".." component is followed by two slashes *)
Definition no_dots_before_double_slash (path : list Z) : Prop :=
  forall a c b, path = a ++ c ++ 47 :: 47 :: b -> (a = [] \/ exists a', a = a' ++ [47]) ->
  c <> [46] /\ c <> [46; 46].
