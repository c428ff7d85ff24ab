(** Brace expansion, on words as lists of symbols. *)
From Verif Require Import Base.
Local Open Scope nat_scope.

(** A symbol: a byte that stands for itself or one with a special meaning. *)
Inductive sym := Plain (c : char) | Special (c : char).
Definition word := list sym.
Notation "'{{'" := (Special "{"%char).
Notation "'}}'" := (Special "}"%char).
Notation "',,'" := (Special ","%char).

(** Text in which every { has its }. *)
Inductive balanced : word -> Prop :=
| B_nil : balanced []
| B_sym x w : x <> {{ -> x <> }} -> balanced w -> balanced (x :: w)
| B_group a b : balanced a -> balanced b -> balanced ({{ :: a ++ }} :: b).

(** The text between two braces is a list of alternatives, separated by commas that
    are not inside inner braces. *)
Inductive no_comma : word -> Prop :=
| N_nil : no_comma []
| N_sym x w : x <> {{ -> x <> }} -> x <> ,, -> no_comma w -> no_comma (x :: w)
| N_group a b : balanced a -> no_comma b -> no_comma ({{ :: a ++ }} :: b).
Inductive alternatives : word -> list word -> Prop :=
| L_one a : no_comma a -> alternatives a [a]
| L_more a w l : no_comma a -> alternatives w l -> alternatives (a ++ ,, :: w) (a :: l).

(** [expands w ws]: the words that [w] stands for, in order.  A brace without its
    partner is ordinary text, and so is everything behind it; a group without a comma
    stands for itself, braces included. *)
Inductive expands : word -> list word -> Prop :=
| E_nil : expands [] [[]]
| E_sym x w ws : x <> {{ -> expands w ws -> expands (x :: w) (map (cons x) ws)
| E_open w : (forall a b, balanced a -> w <> a ++ }} :: b) -> expands ({{ :: w) [{{ :: w]
| E_single a w ws : no_comma a -> expands w ws -> expands ({{ :: a ++ }} :: w) (map (fun v => {{ :: a ++ }} :: v) ws)
| E_group a w l lss ws : alternatives a l -> 2 <= length l -> Forall2 expands l lss -> expands w ws ->
    expands ({{ :: a ++ }} :: w) (flat_map (fun us => flat_map (fun u => map (app u) ws) us) lss).
