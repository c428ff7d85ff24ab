(** A finite map: what the operations mean. *)
From Verif Require Import Base Table_model.

Section Spec.
Variable V : Type.
Definition fmap := cstr -> option V.
Definition fempty : fmap := fun _ => None.
Definition fset (m : fmap) (n : cstr) (v : option V) : fmap := fun x => if str_eqb x n then v else m x.
Definition fop (m : fmap) (o : op V) : fmap :=
  match o with
  | OpEnter _ => m
  | OpDefine n v => fset m n (Some v)
  | OpDelete n => fset m n None
  | OpUse _ _ => m
  | OpHide n => fset m n None
  end.
Definition frun (m : fmap) (ops : list (op V)) : fmap := fold_left fop ops m.

(** strict order on names: the first difference decides, a prefix comes first *)
Inductive str_lt : cstr -> cstr -> Prop :=
| lt_nil c s : str_lt [] (c :: s)
| lt_head c d s t : (ccode c < ccode d)%Z -> str_lt (c :: s) (d :: t)
| lt_tail c s t : str_lt s t -> str_lt (c :: s) (c :: t).
End Spec.
