(** C03: path simplification. *)
From Verif Require Import Base Num_model SimplifyPath_model SimplifyPath_spec SimplifyPath_proof.

(** C03.  For every non-empty path the rewriting stays inside the buffer, ends,
    and yields a normal path of the same kind, not longer than the input, that
    denotes the same location from every directory. *)
Theorem c03_simplify_path (path : cstr) :
  path <> [] -> nul_free path = true ->
  exists s, simplify_path path = Ok s /\ normal_path s /\ absolute s = absolute path /\
    length s <= length path /\ nul_free s = true /\
    forall d, locate d s = locate d path.
Proof.
  intros Hne Hn. exists (afinal (absolute path) (simp_state path)).
  exact (conj (simplify_path_ok path Hne Hn)
        (conj (afinal_normal _ _ (simp_state_ok path))
        (conj (afinal_kind _ _ (simp_state_ok path))
        (conj (simp_length path Hne)
        (conj (afinal_nul_free path Hn) (fun d => simp_locate d path)))))).
Qed.
Print Assumptions c03_simplify_path.

(** C03.  The empty path is left alone. *)
Theorem c03_empty_path : simplify_path [] = Ok [].
Proof. exact eq_refl. Qed.
Print Assumptions c03_empty_path.

(** C03.  Simplifying again changes nothing. *)
Theorem c03_idempotent (path s : cstr) :
  nul_free path = true -> simplify_path path = Ok s -> simplify_path s = Ok s.
Proof.
  intros Hn H. destruct path as [|c path]; [injection H as <-; reflexivity|].
  rewrite simplify_path_ok in H by (discriminate || assumption). injection H as <-.
  rewrite simplify_path_ok.
  - rewrite afinal_kind by apply simp_state_ok. rewrite simp_state_final by apply simp_state_ok. reflexivity.
  - apply afinal_ne, simp_state_ok.
  - apply afinal_nul_free. assumption.
Qed.
Print Assumptions c03_idempotent.

(** C03.  Normal paths are fixed points: nothing that is already normal changes. *)
Theorem c03_normal_unchanged (s : cstr) : nul_free s = true -> normal_path s -> simplify_path s = Ok s.
Proof.
  intros Hn H.
  assert (G : exists rooted st, okst rooted st /\ s = afinal rooted st).
  { destruct H as [names H|k names H Hp|].
    - exists true, (0, names). split; [split; auto|]. destruct names; reflexivity.
    - exists false, (k, names). split; [split; [assumption|discriminate]|].
      destruct k, names; try reflexivity. cbn in Hp. exfalso. inversion Hp.
    - exists false, (0, []). split; [split; [constructor|discriminate]|reflexivity]. }
  destruct G as (rooted & st & Hst & ->).
  rewrite simplify_path_ok by (assumption || apply afinal_ne; assumption).
  rewrite afinal_kind, simp_state_final by assumption. reflexivity.
Qed.
Print Assumptions c03_normal_unchanged.

Example c03_example :
  simplify_path (L "/foo/../../bar/./x//..") = Ok (L "/bar") /\
  simplify_path (L "foo/../../../bar") = Ok (L "../../bar") /\
  simplify_path (L "a/..") = Ok (L ".").
Proof. repeat split; vm_compute; reflexivity. Qed.
