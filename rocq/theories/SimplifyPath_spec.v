(** Paths as sequences of components and the logical location they denote. *)
From Verif Require Import Base.

(** components between slashes, empty ones included *)
Fixpoint components (s : cstr) : list cstr :=
  match s with
  | [] => [[]]
  | c :: s' =>
    if ceq c "/" then [] :: components s'
    else match components s' with
         | [] => [[c]]
         | x :: xs => (c :: x) :: xs
         end
  end.

Definition absolute (s : cstr) : bool :=
  match s with c :: _ => ceq c "/" | [] => false end.

(** one step of walking a directory tree by names; the position is the list of
    directory names from the deepest one up to the root *)
Definition walk1 (pos : list cstr) (x : cstr) : list cstr :=
  if str_eqb x [] || str_eqb x (L ".") then pos
  else if str_eqb x (L "..") then tl pos
  else x :: pos.

(** the location a path denotes when interpreted in directory [d] *)
Definition locate (d : list cstr) (s : cstr) : list cstr :=
  fold_left walk1 (components s) (if absolute s then [] else d).

(** a component that names something *)
Definition plain (x : cstr) : Prop :=
  x <> [] /\ x <> L "." /\ x <> L ".." /\ ~ In "/"%char x.

Fixpoint join (xs : list cstr) : cstr :=
  match xs with
  | [] => []
  | [x] => x
  | x :: xs' => x ++ "/"%char :: join xs'
  end.

(** Normal paths: "/" and names; or ".." components followed by names; "." when
    there is nothing left of a relative path. *)
Inductive normal_path : cstr -> Prop :=
| normal_abs names : Forall plain names -> normal_path ("/"%char :: join names)
| normal_rel k names : Forall plain names -> (0 < k + length names) ->
    normal_path (join (repeat (L "..") k ++ names))
| normal_dot : normal_path (L ".").
