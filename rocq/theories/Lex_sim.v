(** Reading programs on a plain text instead of a stack of sources. *)
From Verif Require Import Base Word_model Src_model Src_spec Src_proof Lex_model.
Local Open Scope nat_scope.

(** The state: the text, and the character that may be put back. *)
Definition funget (c : char) (f : flat) : flat :=
  Flat (if is_nul c then ftext f else c :: ftext f) (pred (fskip f)) (fign f).
Definition last_bs (t : cstr) : bool := match rev t with c :: _ => ceq c "\" | [] => false end.
Definition no_nuls (t : cstr) : bool := negb (existsb is_nul t).
Definition reread_ok (t : cstr) (f : flat) : bool :=
  no_nuls t && (negb (last_bs t) || match ftext f with [] => true | _ => false end).
(** [None]: a character is put back that has not just been read. *)
Fixpoint frun {A} (p : prog A) (f : flat) (last : option char) : option ((A + lerr) * flat * option char) :=
  match p with
  | Ret a => Some (inl a, f, last)
  | Get k => let '(c, f) := fget f in frun (k c) f (Some c)
  | Unget c p => match last with
                 | Some d => if ceq c d then frun p (funget c f) None else None
                 | None => None
                 end
  | Reread t p => if reread_ok t f then frun p (Flat (t ++ ftext f) (fskip f) (fign f)) None else None
  | Ign up p => frun p (Flat (ftext f) (fskip f) (if up then S (fign f) else pred (fign f))) last
  | Err e => Some (inr e, f, last)
  end.

Lemma frun_bind : forall {A B} (p : prog A) (k : A -> prog B) f l,
  frun (bind p k) f l =
  match frun p f l with
  | Some (inl a, f, l) => frun (k a) f l
  | Some (inr e, f, l) => Some (inr e, f, l)
  | None => None
  end.
Proof.
  intros A B p k. induction p as [a|g IH|c p IH|t p IH|u p IH|e]; intros f l; cbn [bind frun].
  - reflexivity.
  - destruct (fget f) as [c f']. apply IH.
  - destruct l as [d|]; [|reflexivity]. destruct (ceq c d); [apply IH|reflexivity].
  - destruct (reread_ok t f); [apply IH|reflexivity].
  - apply IH.
  - reflexivity.
Qed.

Definition lastok (l : option char) (i : input) : Prop := forall c, l = Some c -> ungettable c (srcs i).
Definition related (f : flat) (l : option char) (i : input) : Prop := rel f i /\ lastok l i.

Theorem sim : forall {A} (p : prog A) f l i r f' l',
  related f l i -> frun p f l = Some (r, f', l') ->
  exists i', run p i = (r, i') /\ related f' l' i'.
Proof.
  intros A p. induction p as [a|k IH|c p IH|t p IH|u p IH|e]; intros f l i r f' l' [R U] H; cbn [frun run] in *.
  - injection H as <- <- <-. exists i. split; [reflexivity|]. split; assumption.
  - pose proof (getsc_ok f i R) as Q. destruct (getsc i) as [c i']. destruct (fget f) as [c' f1]. cbn [fst snd] in Q.
    destruct Q as [<- [Q1 Q2]]. apply (IH c' f1 (Some c') i' r f' l'); [|exact H]. split; [exact Q1|].
    intros x E. injection E as <-. exact Q2.
  - destruct l as [d|]; [|discriminate]. destruct (ceq_spec c d) as [->|]; [|discriminate].
    specialize (U d eq_refl). destruct R as [R1 [R2 [R3 R4]]]. destruct (unget_ok d (srcs i) R4 U) as [U1 U2].
    apply (IH (funget d f) None (ungetsc d i) r f' l'); [|exact H]. split; [|intros x E; discriminate].
    unfold funget, ungetsc. split; [|split; [|split]]; cbn [srcs bskip ign ftext fskip fign].
    + rewrite U2. destruct (is_nul d); now rewrite R1.
    + now rewrite R2.
    + exact R3.
    + exact U1.
  - destruct (reread_ok t f) eqn:E; [|discriminate]. apply andb_prop in E. destruct E as [E1 E2].
    destruct R as [R1 [R2 [R3 R4]]].
    assert (Nt : nuls_out t).
    { unfold no_nuls in E1. apply Bool.negb_true_iff in E1. intros X.
      assert (Y : existsb is_nul t = true) by (apply existsb_exists; exists NUL; split; [exact X|reflexivity]). congruence. }
    apply (IH (Flat (t ++ ftext f) (fskip f) (fign f)) None (push_src (Src KReread [] t false false) i) r f' l'); [|exact H].
    split; [|intros x X; discriminate].
    unfold push_src. split; [|split; [|split]]; cbn [srcs bskip ign ftext fskip fign]; try assumption.
    + cbn [text_of]. now rewrite R1.
    + split; [exact Nt|]. split; [intros []|]. split; [exact I|]. right. split; [|exact R4].
      cbn. intros [u Hu]. right. cbn in Hu. subst t. unfold last_bs in E2. rewrite rev_app_distr in E2. cbn [rev app] in E2.
      change (ceq bs "\") with true in E2. cbn [negb orb] in E2. rewrite R1. destruct (ftext f); [reflexivity|discriminate].
  - destruct R as [R1 [R2 [R3 R4]]].
    apply (IH (Flat (ftext f) (fskip f) (if u then S (fign f) else pred (fign f))) l
             (Input (srcs i) (bskip i) (if u then S (ign i) else pred (ign i))) r f' l'); [|exact H].
    split; [|exact U]. split; [|split; [|split]]; cbn [srcs bskip ign ftext fskip fign]; try assumption. now rewrite R3.
  - injection H as <- <- <-. exists i. split; [reflexivity|]. split; assumption.
Qed.

(** * Reading one character *)
Definition ord (k : nat) : Prop := k <> 1.
Lemma fget_plain : forall c t k l, ord k -> c <> "\"%char -> 
  forall {A} (g : char -> prog A), frun (Get g) (Flat (c :: t) k 0) l = frun (g c) (Flat t 0 0) (Some c).
Proof.
  intros c t k l K N A g. cbn [frun]. unfold fget. cbn [fign fskip ftext].
  change (0 <? 0) with false. cbn iota. destruct (Nat.eqb_spec k 1) as [E|_]; [contradiction|].
  apply ceq_false in N. assert (U : unjoin (c :: t) = c :: t) by (cbn [unjoin]; rewrite N; now destruct t).
  rewrite U, N. reflexivity.
Qed.
Lemma fget_bs : forall d t k l, ord k -> d <> NL ->
  forall {A} (g : char -> prog A), frun (Get g) (Flat ("\"%char :: d :: t) k 0) l = frun (g "\"%char) (Flat (d :: t) 1 0) (Some "\"%char).
Proof.
  intros d t k l K N A g. cbn [frun]. unfold fget. cbn [fign fskip ftext].
  change (0 <? 0) with false. cbn iota. destruct (Nat.eqb_spec k 1) as [E|_]; [contradiction|].
  apply ceq_false in N. assert (U : unjoin ("\"%char :: d :: t) = "\"%char :: d :: t) by (cbn [unjoin]; rewrite N; reflexivity).
  rewrite U. reflexivity.
Qed.
Lemma fget_esc : forall d t l, 
  forall {A} (g : char -> prog A), frun (Get g) (Flat (d :: t) 1 0) l = frun (g d) (Flat t 2 0) (Some d).
Proof. reflexivity. Qed.
Lemma fget_raw : forall d t k n l,
  forall {A} (g : char -> prog A), frun (Get g) (Flat (d :: t) k (S n)) l = frun (g d) (Flat t k (S n)) (Some d).
Proof. reflexivity. Qed.
Lemma fget_eof : forall k l, ord k ->
  forall {A} (g : char -> prog A), frun (Get g) (Flat [] k 0) l = frun (g NUL) (Flat [] 0 0) (Some NUL).
Proof.
  intros k l K A g. cbn [frun]. unfold fget. cbn [fign fskip ftext].
  change (0 <? 0) with false. cbn iota. destruct (Nat.eqb_spec k 1) as [E|_]; [contradiction|]. reflexivity.
Qed.
