(** Variables: what is observed of them, and the vocabulary of the theorems. *)
From Verif Require Import Base Num_model SimplifyPath_model Printf_model Justify_model Arith_model Var_model.
Local Open Scope Z_scope.

(** The value of element i of a variable: None when it is not set. *)
Definition text (t : tbl) : res cstr := match str_val t with Ok (s, _) => Ok s | Err => Err | UB => UB end.
Definition valof (e : ent) (i : Z) : option (res cstr) :=
  match get_t e i with Some t => if on t ISSET then Some (text t) else None | None => None end.

(** The variables of a block are named by the position of the block counted from
    the outermost one, which calls and returns of functions do not change. *)
Definition at_level (st : vars) (k : nat) (n : cstr) : option ent :=
  if (k <? length st)%nat then entry st (length st - 1 - k) n else None.

(** A read-only variable: the variable and all its elements carry the attribute. *)
Definition readonly (e : ent) : Prop :=
  on (e_base e) DEFINED = true /\ on (e_base e) RDONLY = true /\ Forall (fun t => on t RDONLY = true) (e_elems e).

(** The block at level k is in use throughout: it is not popped. *)
Fixpoint stays (depth k : nat) (l : list vop) : bool :=
  match l with
  | [] => true
  | NewBlock :: l' => stays (S depth) k l'
  | PopBlock :: l' => let d := if (depth <=? 1)%nat then depth else pred depth in (k <? d)%nat && stays d k l'
  | _ :: l' => stays depth k l'
  end.

(** What c_typeset, comexec and main pass to typeset. *)
Definition TYPESET_BITS : N := N.lor EXPORT (N.lor TRACE (N.lor INTEGER (N.lor RDONLY (N.lor LOCAL (N.lor LJUST (N.lor RJUST
  (N.lor ZEROFIL (N.lor LCASEV (N.lor UCASEV_AL (N.lor INT_U (N.lor INT_L (N.lor IMPORT LOCAL_COPY)))))))))))).
Definition okop (o : vop) : bool :=
  match o with Typeset _ set clr _ _ => (N.ldiff set TYPESET_BITS =? 0)%N && (N.ldiff clr TYPESET_BITS =? 0)%N | _ => true end.

(** Well-formed tables: chains are in increasing order of positive indices, and
    arrays have proper names.  Holds of an empty table, and see c12_wf. *)
Fixpoint increasing (lo : Z) (l : list tbl) : Prop :=
  match l with [] => True | t :: l' => lo < t_index t /\ increasing (t_index t) l' end.
Definition wf_ent (n : cstr) (e : ent) : Prop :=
  increasing 0 (e_elems e) /\ (on (e_base e) ARRAY = true \/ e_elems e <> [] -> ~ In "["%char n).
Definition wf (st : vars) : Prop := st <> [] /\ forall k n e, entry st k n = Some e -> wf_ent n e.

(** ** Arrays as finite maps *)
Definition amap := Z -> option cstr.
Definition upd (m : amap) (i : Z) (v : option cstr) : amap := fun j => if j =? i then v else m j.
(** set -A: the values at first, first+1, ... *)
Fixpoint fill (m : amap) (first : Z) (vals : list cstr) : amap :=
  match vals with [] => m | v :: vals' => fill (upd m first (Some v)) (first + 1) vals' end.

(** Commands on an array; [s] is the text of the subscript. *)
Inductive aop :=
| ASet (s v : cstr)          (* a[s]=v *)
| AScalar (v : cstr)         (* a=v *)
| ARead (s v : cstr)         (* read a[s], v being the input *)
| AUnset (s : cstr)          (* unset a[s] *)
| AUnsetAll                  (* unset a *)
| AFill (reset : bool) (vals : list cstr)   (* set -A a vals, set +A a vals *)
| AGet (s : cstr)            (* ${a[s]} *)
| AGetAll.                   (* ${a[*]} *)
Definition elem (n s : cstr) : cstr := n ++ L "[" ++ s ++ L "]".
Definition command (n : cstr) (o : aop) : vop :=
  match o with
  | ASet s v => Typeset (elem n s ++ L "=" ++ v) 0 0 0 0
  | AScalar v => Typeset (n ++ L "=" ++ v) 0 0 0 0
  | ARead s v => Read (elem n s) v false
  | AUnset s => Unset (elem n s)
  | AUnsetAll => Unset n
  | AFill r vals => SetArray n r vals
  | AGet s => Get (elem n s)
  | AGetAll => GetAll (n ++ L "[*]")
  end.
(** what they mean, given the value of each subscript *)
Definition meaning (idx : cstr -> Z) (o : aop) (m : amap) : amap :=
  match o with
  | ASet s v | ARead s v => upd m (idx s) (Some v)
  | AScalar v => upd m 0 (Some v)
  | AUnset s => upd m (idx s) None
  | AUnsetAll => fun _ => None
  | AFill r vals => fill (if r then fun _ => None else m) 0 vals
  | AGet _ | AGetAll => m
  end.
Definition subs (o : aop) : list cstr := match o with ASet s _ | ARead s _ | AUnset s | AGet s => [s] | _ => [] end.
(** the subscripts that are used evaluate to an index in the accepted range and assign nothing *)
Definition good_sub (ev : vars -> cstr -> list asn * evres) (idx : cstr -> Z) (s : cstr) : Prop :=
  ~ In "["%char s /\ ~ In "]"%char s /\ 0 <= idx s <= INT_MAX /\ forall st, exists b, ev st s = ([], EvOk (idx s) b).

(** A variable of the outermost block, without attributes other than export, and
    not defined in the other blocks; m: its values *)
Definition PLAIN : N := N.lor INTEGER (N.lor RDONLY (N.lor UCASEV_AL (N.lor LCASEV (N.lor LJUST RJUST)))).
Definition plain_t (t : tbl) : Prop :=
  on t PLAIN = false /\ (on t ISSET = true -> exists s, t_val t = VStr s /\ 0 <= t_type t <= strlen s).
Definition is_array (st : vars) (n : cstr) (m : amap) : Prop :=
  wf st /\
  (forall j e, (j < pred (length st))%nat -> entry st j n = Some e -> on (e_base e) DEFINED = false) /\
  match entry st (pred (length st)) n with
  | None => forall i, m i = None
  | Some e => (forall i t, get_t e i = Some t -> plain_t t /\ (i <> 0 -> on t ARRAY = true)) /\ (e_elems e <> [] -> on (e_base e) ARRAY = true) /\
              forall i, valof e i = option_map Ok (m i)
  end.

(** ** The union val is used at the type it was written with *)
(** A string is either the value (type 0) or name=value with type the offset of the value. *)
Definition typed_t (n : cstr) (t : tbl) : Prop :=
  on t ISSET = true ->
  if on t INTEGER then exists z, t_val t = VInt z
  else exists s, (t_val t = VStr s /\ t_type t = 0) \/ (t_val t = VStr (n ++ "="%char :: s) /\ t_type t = strlen n + 1).
Definition exported_form (t : tbl) : Prop :=
  on t ISSET = true -> on t EXPORT = true -> on t INTEGER = false -> t_type t <> 0.
Definition typed (st : vars) : Prop :=
  wf st /\ (forall k b, nth_error st k = Some b -> NoDup (map fst b)) /\
  forall k n e, entry st k n = Some e ->
    (forall i t, get_t e i = Some t -> typed_t n t) /\ exported_form (e_base e) /\
    (on (e_base e) ISSET = true -> on (e_base e) DEFINED = true).
(** the commands after which, when they fail, a variable may be left half converted:
    those that give attributes *)
Definition attributes (o : vop) : bool :=
  match o with Typeset _ set clr _ _ => negb (N.lor set clr =? 0)%N | Read _ _ x => x | _ => false end.
(** a run in which no such command fails *)
Fixpoint calm (ev : vars -> cstr -> list asn * evres) (fuel : nat) (st : vars) (l : list vop) : Prop :=
  match l with
  | [] => True
  | o :: l' => match step ev fuel st o with
               | Val _ st' => calm ev fuel st' l'
               | Fail st' => attributes o = false /\ calm ev fuel st' l'
               | _ => True
               end
  end.

(** ** The environment *)
(** the innermost block where n is set and exported *)
Fixpoint env_binding (st : vars) (n : cstr) : option tbl :=
  match st with
  | [] => None
  | b :: st' => match look b n with
                | Some e => if on (e_base e) ISSET && on (e_base e) EXPORT then Some (e_base e) else env_binding st' n
                | None => env_binding st' n
                end
  end.
(** x is the string for variable n: the name, '=' and the value.  (An integer
    with justification flags is justified once more: only the prefix is claimed.) *)
Definition env_string (n : cstr) (t : tbl) (x : cstr) : Prop :=
  exists s, x = n ++ "="%char :: s /\
    (on t INTEGER && on t (N.lor UCASEV_AL (N.lor LCASEV (N.lor LJUST RJUST))) = false -> text t = Ok s).

(** ** Which variable a name denotes: the innermost block that defines it *)
Definition binds (st : vars) (k : nat) (n : cstr) (e : ent) : Prop :=
  entry st k n = Some e /\ on (e_base e) DEFINED = true /\
  forall j x, (j < k)%nat -> entry st j n = Some x -> on (e_base x) DEFINED = false.
(** the commands that write to n: as a whole or to one of its elements *)
Definition writes (n : cstr) (o : vop) : Prop :=
  exists w, (w = n \/ exists s, ~ In "["%char s /\ ~ In "]"%char s /\ w = elem n s) /\
  match o with
  | Typeset v set clr _ _ => any set LOCAL = false /\ any set IMPORT = false /\
      ((exists x, v = w ++ L "=" ++ x) \/ (v = w /\ (clr <> 0%N \/ N.ldiff (N.ldiff set (N.lor LOCAL LOCAL_COPY)) EXPORT <> 0%N)))
  | Unset v | Assign v _ _ | Read v _ _ => v = w
  | SetArray v _ _ => v = n
  | _ => False
  end.
(** an expression that assigns to n *)
Definition assigns (ev : vars -> cstr -> list asn * evres) (n : cstr) (o : vop) : Prop :=
  match o with Let s => forall st, exists a l r, ev st s = (a :: l, r) /\ a_name a = n | _ => False end.
