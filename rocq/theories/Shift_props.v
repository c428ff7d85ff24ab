(** C46: shift. *)
From Verif Require Import Base Shift_model.
Local Open Scope Z_scope.

Lemma to_int_id v : - 2 ^ 31 <= v < 2 ^ 31 -> to_int v = v.
Proof. intros H. unfold to_int. rewrite Z.mod_small; lia. Qed.

(** For every argument in the range of int (or none: 1) and any parameters [ps] of [name]. *)
Theorem c46_shift_partial : forall arg name ps, (forall v, arg = Some v -> - 2 ^ 31 <= v < 2 ^ 31) ->
  let n := match arg with Some v => v | None => 1 end in
  (0 <= n <= Z.of_nat (length ps) -> exists dropped rest, ps = dropped ++ rest /\ Z.of_nat (length dropped) = n
     /\ c_shift arg (name :: ps) = Some (0, name :: rest))
  /\ (~ 0 <= n <= Z.of_nat (length ps) -> c_shift arg (name :: ps) = Some (1, name :: ps)).
Proof.
  intros arg name ps R n. unfold c_shift.
  assert (E : match arg with Some v => to_int v | None => 1 end = n).
  { subst n. destruct arg as [v|]; [apply to_int_id, R; reflexivity|reflexivity]. }
  rewrite E. cbn [length]. split.
  - intros H. destruct (Z.ltb_spec n 0); [lia|]. destruct (Z.ltb_spec (Z.of_nat (S (length ps)) - 1) n); [lia|].
    unfold write_at. cbn [length]. destruct (Nat.ltb_spec (Z.to_nat n) (S (length ps))); [|lia].
    exists (firstn (Z.to_nat n) ps), (skipn (Z.to_nat n) ps). split; [symmetry; apply firstn_skipn|].
    split; [rewrite firstn_length; lia|]. do 2 f_equal. rewrite skipn_app.
    rewrite skipn_all2 by (rewrite firstn_length; cbn [length]; lia). rewrite firstn_length. cbn [length app].
    replace (Z.to_nat n - Nat.min (Z.to_nat n) (S (length ps)))%nat with 0%nat by lia. reflexivity.
  - intros H. destruct (Z.ltb_spec n 0); [reflexivity|]. destruct (Z.ltb_spec (Z.of_nat (S (length ps)) - 1) n); [reflexivity|lia].
Qed.
Print Assumptions c46_shift_partial.

(** For any argument at all: nothing outside argv is touched, $0 stays, and only parameters
    from the front go. *)
Theorem c46_safe : forall arg name ps, exists st dropped rest,
  c_shift arg (name :: ps) = Some (st, name :: rest) /\ ps = dropped ++ rest
  /\ (st = 0 \/ st = 1 /\ dropped = []).
Proof.
  intros arg name ps. unfold c_shift. set (n := match arg with Some v => to_int v | None => 1 end). clearbody n.
  destruct (Z.ltb_spec n 0); [exists 1, [], ps; auto|]. cbn [length].
  destruct (Z.ltb_spec (Z.of_nat (S (length ps)) - 1) n); [exists 1, [], ps; auto|].
  unfold write_at. cbn [length]. destruct (Nat.ltb_spec (Z.to_nat n) (S (length ps))); [|lia].
  exists 0, (firstn (Z.to_nat n) ps), (skipn (Z.to_nat n) ps). split; [|split; [symmetry; apply firstn_skipn|auto]].
  do 2 f_equal. rewrite skipn_app.
  rewrite skipn_all2 by (rewrite firstn_length; cbn [length]; lia). rewrite firstn_length. cbn [length app].
  replace (Z.to_nat n - Nat.min (Z.to_nat n) (S (length ps)))%nat with 0%nat by lia. reflexivity.
Qed.
Print Assumptions c46_safe.
Example c46_ex : c_shift (Some 2) [L "sh"; L "a"; L "b"; L "c"] = Some (0, [L "sh"; L "c"])
  /\ c_shift (Some 4) [L "sh"; L "a"; L "b"; L "c"] = Some (1, [L "sh"; L "a"; L "b"; L "c"])
  /\ c_shift (Some (-1)) [L "sh"; L "a"] = Some (1, [L "sh"; L "a"]).
Proof. vm_compute. auto. Qed.

(** Beyond int the value is cut to 32 bits: shift 4294967297 shifts by one instead of failing. *)
Theorem c46_shift_refuted : c_shift (Some 4294967297) [L "sh"; L "a"; L "b"] = Some (0, [L "sh"; L "b"])
  /\ c_shift (Some 4294967296) [L "sh"; L "a"; L "b"] = Some (0, [L "sh"; L "a"; L "b"]).
Proof. vm_compute. auto. Qed.
Print Assumptions c46_shift_refuted.
