(** C49: expandable strings and vectors. *)
From Verif Require Import Base XString_model XString_spec.
From Coq Require Import Lia.
Local Open Scope nat_scope.

Definition xinv (x : xstr) : Prop := xalloc x = xlen x + 8 /\ length (xtext x) <= xalloc x.

Lemma xcheckn_ok : forall n x, xinv x ->
  xinv (xcheckn n x) /\ xtext (xcheckn n x) = xtext x /\
  xalloc x <= xalloc (xcheckn n x) /\ length (xtext x) + n + 8 <= xalloc (xcheckn n x).
Proof.
  intros n x [A B]. unfold xcheckn, xinv. destruct (Nat.ltb_spec (xlen x) (length (xtext x) + n)); cbn; (split; [lia|]); (split; [reflexivity|lia]).
Qed.

Lemma xrun_ok : forall os x room, xinv x -> length (xtext x) + room <= xalloc x -> disciplined room os ->
  exists x', xrun os x = Some x' /\ xinv x' /\ xtext x' = text_of os (xtext x).
Proof.
  induction os as [|o os IH]; intros x room I R D; [exists x; auto|].
  destruct o as [n|c|n]; cbn [xrun text_of disciplined] in *.
  - destruct (xcheckn_ok n x I) as (A & B & C & E).
    destruct (IH (xcheckn n x) (Nat.max room (n + 8)) A) as (x' & X); [rewrite B; lia|exact D|].
    exists x'. rewrite B in X. exact X.
  - destruct room as [|r]; [contradiction|]. unfold xput.
    destruct (Nat.ltb_spec (length (xtext x)) (xalloc x)); [|lia].
    destruct (IH (XStr (xalloc x) (xlen x) (xtext x ++ [c])) r) as (x' & X); [| |exact D|exists x'; exact X].
    + destruct I as [A B]. unfold xinv; cbn. rewrite app_length; cbn. lia.
    + cbn. rewrite app_length; cbn. lia.
  - destruct (IH (xback n x) room) as (x' & X); [| |exact D|exists x'; exact X].
    + destruct I as [A B]. unfold xinv; cbn. rewrite firstn_length. lia.
    + cbn. rewrite firstn_length. lia.
Qed.

(** Every sequence that keeps to the rule, on a string of any initial size, stays inside the
    allocation and leaves the text appended. *)
Theorem c49_in_bounds : forall size os, disciplined 8 os ->
  exists x, xrun os (xinit size) = Some x /\ xclose x = text_of os [].
Proof.
  intros size os D. destruct (xrun_ok os (xinit size) 8) as (x & A & B & C).
  - unfold xinv, xinit, X_EXTRA; cbn. lia.
  - unfold xinit, X_EXTRA; cbn. lia.
  - exact D.
  - exists x. auto.
Qed.
Print Assumptions c49_in_bounds.

(** The usual loop, check one, put one: any text. *)
Lemma text_loop : forall t a, text_of (flat_map (fun c => [XCheck 1; XPut c]) t) a = a ++ t.
Proof.
  induction t as [|c t IH]; intros a; cbn; [now rewrite app_nil_r|]. rewrite IH, <- app_assoc. reflexivity.
Qed.
Theorem c49_check_put : forall size t,
  exists x, xrun (flat_map (fun c => [XCheck 1; XPut c]) t) (xinit size) = Some x /\ xclose x = t.
Proof.
  intros size t. destruct (c49_in_bounds size (flat_map (fun c => [XCheck 1; XPut c]) t)) as (x & A & B).
  - assert (G : forall t r, disciplined r (flat_map (fun c => [XCheck 1; XPut c]) t)).
    { clear. induction t as [|c t IH]; intros r; [exact Logic.I|]. cbn [flat_map app disciplined].
      destruct (Nat.max r (1 + 8)) eqn:E; [lia|apply IH]. }
    apply G.
  - exists x. split; [exact A|]. rewrite B. apply text_loop.
Qed.
Print Assumptions c49_check_put.

(** The rule is needed: without checks, a byte more than the size and the reserve is stored
    outside, for every size. *)
Theorem c49_reserve_exact : forall size t,
  (exists x, xrun (map XPut t) (xinit size) = Some x) <-> length t <= size + 8.
Proof.
  intros size t.
  assert (G : forall t x, xinv x ->
     ((exists y, xrun (map XPut t) x = Some y) <-> length (xtext x) + length t <= xalloc x)).
  { clear. induction t as [|c t IH]; intros x I; cbn [map xrun length].
    - split; [intros _; destruct I; lia|intros _; now exists x].
    - unfold xput. destruct (Nat.ltb_spec (length (xtext x)) (xalloc x)).
      + rewrite IH by (destruct I; unfold xinv; cbn; rewrite app_length; cbn; lia). cbn. rewrite app_length. cbn. lia.
      + split; [intros [y Y]; discriminate|lia]. }
  rewrite G; [|unfold xinv, xinit, X_EXTRA; cbn; lia]. cbn. unfold X_EXTRA. reflexivity.
Qed.
Print Assumptions c49_reserve_exact.

(** Appending to a pointer vector of any size but zero. *)
Lemma xprun_ok : forall A (ps : list A) v, 0 < vcap v -> length (velts v) <= vcap v ->
  exists w, xprun ps v = Some w /\ velts w = velts v ++ ps /\ length (velts w) <= vcap w.
Proof.
  induction ps as [|p ps IH]; intros v Z L; cbn [xprun].
  - exists v. rewrite app_nil_r. auto.
  - unfold xpput. destruct (Nat.leb_spec (vcap v) (length (velts v))).
    + destruct (Nat.ltb_spec (length (velts v)) (length (velts v) * 2)); [|lia].
      destruct (IH (XPtrV (length (velts v) * 2) (velts v ++ [p]))) as (w & A1 & A2 & A3); cbn; rewrite ?app_length; cbn; try lia.
      exists w. split; [exact A1|]. split; [rewrite A2; cbn; now rewrite <- app_assoc|exact A3].
    + destruct (Nat.ltb_spec (length (velts v)) (vcap v)); [|lia].
      destruct (IH (XPtrV (vcap v) (velts v ++ [p]))) as (w & A1 & A2 & A3); cbn; rewrite ?app_length; cbn; try lia.
      exists w. split; [exact A1|]. split; [rewrite A2; cbn; now rewrite <- app_assoc|exact A3].
Qed.
Theorem c49_vector : forall (A : Type) n (ps : list A), 0 < n ->
  exists w, xprun ps (xpinit n) = Some w /\ velts w = ps.
Proof.
  intros A n ps Z. destruct (xprun_ok A ps (xpinit n)) as (w & A1 & A2 & _); [exact Z|cbn; lia|]. exists w. auto.
Qed.
Print Assumptions c49_vector.
(** A vector of size zero would not grow; every XPinit in the shell has a positive size. *)
Theorem c49_vector_zero : forall (A : Type) (p : A) ps, xprun (p :: ps) (xpinit 0) = None.
Proof. reflexivity. Qed.
Print Assumptions c49_vector_zero.

Example c49_case : exists x,
  xrun [XCheck 1; XPut "a"; XPut "b"; XBack 1; XCheck 20; XPut "c"]%char (xinit 0) = Some x /\
  xclose x = L "ac" /\ xalloc x = 29.
Proof. eexists. split; [vm_compute; reflexivity|]. split; reflexivity. Qed.
Example c49_case_disciplined :
  disciplined 8 ([XCheck 2] ++ map XPut (L "0123456789") ++ [XBack 3; XCheck 0] ++ map XPut (L "01234567")).
Proof. cbn. exact Logic.I. Qed.
