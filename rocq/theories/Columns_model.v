(** Listing in columns (misc.c). *)
From Verif Require Import Base.
Local Open Scope Z_scope.

(** print_columns (misc.c:1016-1064).  The layout: rows, columns, width of a column and space
    between them; all values are int. *)
Record layout := Layout { rows : Z; cols : Z; width : Z; gap : Z }.
Definition lay (x_cols n max_width : Z) (prefcol : bool) : layout :=
  let c := x_cols / (max_width + 1) in
  let c := if c =? 0 then 1 else c in
  let r := (n + c - 1) / c in
  let '(r, c) := if prefcol && negb (n =? 0) && (r <? c) then (if n <? c then n else c, r) else (r, c) in
  let g := (x_cols - max_width * c) / c in
  Layout r c (if c =? 1 then 0 else max_width) (if g <=? 0 then 1 else g).

(** %-*s *)
Definition pad (w : Z) (s : cstr) : cstr := s ++ repeat SP (Z.to_nat w - length s).
(** One row: the numbers of the entries printed, and the text. *)
Definition row_items (n : Z) (l : layout) (r : nat) : list Z :=
  filter (fun i => i <? n) (map (fun c => Z.of_nat c * rows l + Z.of_nat r) (seq 0 (Z.to_nat (cols l)))).
Definition row_text (n : Z) (l : layout) (f : Z -> cstr) (r : nat) : cstr :=
  concat (map (fun c => let i := Z.of_nat c * rows l + Z.of_nat r in
                        if i <? n then pad (width l) (f i)
                               ++ (if Z.of_nat c + 1 <? cols l then repeat SP (Z.to_nat (gap l)) else [])
                        else [])
              (seq 0 (Z.to_nat (cols l)))).
Definition print_columns (x_cols n max_width : Z) (prefcol : bool) (f : Z -> cstr) : list cstr :=
  let l := lay x_cols n max_width prefcol in map (row_text n l f) (seq 0 (Z.to_nat (rows l))).
