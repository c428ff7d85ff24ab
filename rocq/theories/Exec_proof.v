(** The executor against the semantics. *)
From Verif Require Import Base Exec_model Exec_spec.
Local Open Scope Z_scope.

Definition is_node (c : cmd) : bool := match c with Nop | Arm _ _ _ => false | _ => true end.
Definition noret (o : out) : out := match o with Ret _ => Jump JExit | j => j end.

Section P.
Context {S : Type} (d : disp S).
Notation st := (@st S).
Notation sp := (@sp S).

(** one step of the executor *)
Lemma ex_Nop n  fl x (s : st) : execute d (Datatypes.S n) Nop fl x s =
      Some (Ret 0, x, s).
Proof. reflexivity. Qed.
Lemma ex_Arm n p b0 n0 fl x (s : st) : execute d (Datatypes.S n) (Arm p b0 n0) fl x s =
      Some (Ret 0, x, s).
Proof. reflexivity. Qed.
Lemma ex_Plain n k fl x (s : st) : execute d (Datatypes.S n) (Plain k) fl x s =
      let '(w, r) := d_com d k (s_w s) (s_q s) in
                 match r with
                 | RStat rv => Some (tail fl x rv (set_w s w))
                 | RErr => Some (Jump (error_jump s), x, set_q (set_w s w) 1)
                 end.
Proof. reflexivity. Qed.
Lemma ex_SetE n b fl x (s : st) : execute d (Datatypes.S n) (SetE b) fl x s =
      Some (tail fl x 0 (set_e s b)).
Proof. reflexivity. Qed.
Lemma ex_Exit n v fl x (s : st) : execute d (Datatypes.S n) (Exit v) fl x s =
      Some (leave fl x (c_exitreturn false v s)).
Proof. reflexivity. Qed.
Lemma ex_Return n v fl x (s : st) : execute d (Datatypes.S n) (Return v) fl x s =
      Some (leave fl x (c_exitreturn true v s)).
Proof. reflexivity. Qed.
Lemma ex_Break n v fl x (s : st) : execute d (Datatypes.S n) (Break v) fl x s =
      Some (leave fl x (c_brkcont JBreak v s)).
Proof. reflexivity. Qed.
Lemma ex_Continue n v fl x (s : st) : execute d (Datatypes.S n) (Continue v) fl x s =
      Some (leave fl x (c_brkcont JCont v s)).
Proof. reflexivity. Qed.
Lemma ex_Call n f fl x (s : st) : execute d (Datatypes.S n) (Call f) fl x s =
      match d_fun d (s_w s) f with
      | None => Some (tail fl x 127 s)
      | Some body =>
        match execute d n body (sub_flags fl) x (set_k (set_w s (d_enter d f (s_w s))) (FFunc :: s_k s)) with
        | Some (o, x, s1) =>
          let s2 := pop (set_w s1 (d_leave d (s_w s) (s_w s1))) in
          match o with
          | Ret rv => Some (tail fl x rv (set_q s2 rv))
          | Jump JReturn | Jump JError => Some (tail fl x (s_q s2) s2)
          | Jump j => Some (Jump j, x, s2)
          end
        | None => None
        end
      end.
Proof. reflexivity. Qed.
Lemma ex_Eval n c fl x (s : st) : execute d (Datatypes.S n) (Eval c) fl x s =
      let savef := s_e s in
      match execute d n c (Xf false false) false (set_k (set_e s false) (FParse :: s_k s)) with
      | Some (Ret rv, _, s1) => Some (tail fl x rv (pop (set_e (set_q s1 rv) savef)))
      | Some (Jump j, _, s1) => Some (Jump j, x, pop s1)
      | None => None
      end.
Proof. reflexivity. Qed.
Lemma ex_Seq n c1 c2 fl x (s : st) : execute d (Datatypes.S n) (Seq c1 c2) fl x s =
      finish fl (elist d n (Seq c1 c2) (sub_flags fl) x s).
Proof. reflexivity. Qed.
Lemma ex_And n a b fl x (s : st) : execute d (Datatypes.S n) (And a b) fl x s =
      match execute d n a ignore x s with
      | Some (Ret rv, x, s1) =>
        if rv =? 0 then finish fl (execute d n b (sub_flags fl) x s1)
        else Some (tail (Xf true (x_exec fl)) true rv s1)
      | Some (Jump j, x, s1) => Some (Jump j, x, s1)
      | None => None
      end.
Proof. reflexivity. Qed.
Lemma ex_Or n a b fl x (s : st) : execute d (Datatypes.S n) (Or a b) fl x s =
      match execute d n a ignore x s with
      | Some (Ret rv, x, s1) =>
        if rv =? 0 then Some (tail (Xf true (x_exec fl)) true rv s1)
        else finish fl (execute d n b (sub_flags fl) x s1)
      | Some (Jump j, x, s1) => Some (Jump j, x, s1)
      | None => None
      end.
Proof. reflexivity. Qed.
Lemma ex_Not n a fl x (s : st) : execute d (Datatypes.S n) (Not a) fl x s =
      match execute d n a ignore x s with
      | Some (Ret rv, _, s1) => Some (tail (Xf true (x_exec fl)) true (if rv =? 0 then 1 else 0) s1)
      | Some (Jump j, x, s1) => Some (Jump j, x, s1)
      | None => None
      end.
Proof. reflexivity. Qed.
Lemma ex_If n a t e fl x (s : st) : execute d (Datatypes.S n) (If a t e) fl x s =
      match execute d n a ignore false s with
      | Some (Ret rv, _, s1) =>
        finish fl (execute d n (if rv =? 0 then t else e) (sub_flags fl) x s1)
      | Some (Jump j, _, s1) => Some (Jump j, x, s1)
      | None => None
      end.
Proof. reflexivity. Qed.
Lemma ex_While n u a b fl x (s : st) : execute d (Datatypes.S n) (While u a b) fl x s =
      loop_end fl (wloop d n u a b (sub_flags fl) x 0 (set_k s (FLoop false :: s_k s))).
Proof. reflexivity. Qed.
Lemma ex_For n k b fl x (s : st) : execute d (Datatypes.S n) (For k b) fl x s =
      let '(w, ws) := d_words d k (s_w s) in
                 loop_end fl (floop d n ws b (sub_flags fl) x x 0 (set_k (set_w s w) (FLoop false :: s_k s))).
Proof. reflexivity. Qed.
Lemma ex_Select n k b fl x (s : st) : execute d (Datatypes.S n) (Select k b) fl x s =
      loop_end fl (sloop d n k b (sub_flags fl) x (set_k s (FLoop false :: s_k s))).
Proof. reflexivity. Qed.
Lemma ex_Case n k arms fl x (s : st) : execute d (Datatypes.S n) (Case k arms) fl x s =
      match find_arm d arms (d_word d k (s_w s)) with
      | (w, None) => Some (tail fl x 0 (set_w s w))
      | (w, Some body) => finish fl (execute d n body (sub_flags fl) x (set_w s w))
      end.
Proof. reflexivity. Qed.
Lemma ex_Brace n c fl x (s : st) : execute d (Datatypes.S n) (Brace c) fl x s =
      finish fl (execute d n c (sub_flags fl) x s).
Proof. reflexivity. Qed.
Lemma ex_Subshell n c fl x (s : st) : execute d (Datatypes.S n) (Subshell c) fl x s =
      let r := if x_exec fl then execute d n c fl x s
               else match c with
                    | Pipe _ _ => execute d n c fl x s
                    | _ => match child d n c fl s with Some (rv, s1) => Some (Ret rv, x, s1) | None => None end
                    end in
      finish fl r.
Proof. reflexivity. Qed.
Lemma ex_Pipe n c1 c2 fl x (s : st) : execute d (Datatypes.S n) (Pipe c1 c2) fl x s =
      match pipes d n (Pipe c1 c2) (sub_flags fl) s with
      | Some (l, s1) => Some (tail (sub_flags fl) x (if d_pipefail d (s_w s) then last_failure l 0 else last l 0) s1)
      | None => None
      end.
Proof. reflexivity. Qed.
Lemma ex_Async n c fl x (s : st) : execute d (Datatypes.S n) (Async c) fl x s =
      Some (tail fl x 0 (set_w s (d_async d c (s_w s)))).
Proof. reflexivity. Qed.
Lemma eq_child n (c : cmd) (fl : xflags) (s : st) : child d (Datatypes.S n) c  fl  s  =
      match execute d n c (child_flags fl) false (child_state s) with
           | Some (_, _, s1) => Some (s_q s1 mod 256, set_w s (d_join d (s_w s) (s_w s1)))
           | None => None
           end.
Proof. reflexivity. Qed.
Lemma eq_pipes n (c : cmd) (fl : xflags) (s : st) : pipes d (Datatypes.S n) c  fl  s  =
      match c with
    | Pipe a b => match child d n a fl s with
                  | Some (rv, s1) => match pipes d n b fl s1 with Some (l, s2) => Some (rv :: l, s2) | None => None end
                  | None => None
                  end
    | _ => match child d n c fl s with Some (rv, s1) => Some ([rv], s1) | None => None end
    end.
Proof. reflexivity. Qed.
Lemma eq_elist n (c : cmd) (fl : xflags) (x : bool) (s : st) : elist d (Datatypes.S n) c  fl  x  s  =
      match c with
    | Seq a b => match execute d n a (sub_flags fl) false s with
                 | Some (Ret _, _, s1) => elist d n b fl x s1
                 | Some (Jump j, _, s1) => Some (Jump j, x, s1)
                 | None => None
                 end
    | _ => execute d n c (sub_flags fl) x s
    end.
Proof. reflexivity. Qed.
Lemma eq_wloop n (u : bool) (a b : cmd) (fl : xflags) (x : bool) (rv : Z) (s : st) : wloop d (Datatypes.S n) u  a b  fl  x  rv  s  =
      match execute d n a ignore false s with
    | Some (Ret r, _, s1) =>
      if Bool.eqb (r =? 0) (negb u) then
        match execute d n b (sub_flags fl) x s1 with
        | Some (Ret rv, x, s2) => wloop d n u a b fl x rv s2
        | Some (Jump j, x, s2) => match caught j x s2 with Some r => Some r | None => wloop d n u a b fl x 0 s2 end
        | None => None
        end
      else Some (Ret rv, x, s1)
    | Some (Jump j, _, s1) => match caught j x s1 with Some r => Some r | None => wloop d n u a b fl x 0 s1 end
    | None => None
    end.
Proof. reflexivity. Qed.
Lemma eq_floop n (ws : list nat) (b : cmd) (fl : xflags) (save x : bool) (rv : Z) (s : st) : floop d (Datatypes.S n) ws  b  fl  save x  rv  s  =
      match ws with
    | [] => Some (Ret rv, x, s)
    | k :: ws' =>
      match d_set d k (s_w s) with
      | None => Some (Jump (error_jump s), x, set_q s 1)
      | Some w =>
        match execute d n b (sub_flags fl) save (set_w s w) with
        | Some (Ret rv, x, s2) => floop d n ws' b fl save x rv s2
        | Some (Jump j, x, s2) => match caught j x s2 with Some r => Some r | None => floop d n ws' b fl x x 0 s2 end
        | None => None
        end
      end
    end.
Proof. reflexivity. Qed.
Lemma eq_sloop n (k : nat) (b : cmd) (fl : xflags) (x : bool) (s : st) : sloop d (Datatypes.S n) k  b  fl  x  s  =
      match d_select d k (s_w s) with
    | (w, None) => Some (Ret 1, x, set_w s w)
    | (w, Some v) =>
      match d_set d v w with
      | None => Some (Jump (error_jump s), x, set_q (set_w s w) 1)
      | Some w =>
        match execute d n b (sub_flags fl) x (set_w s w) with
        | Some (Ret _, x, s2) => sloop d n k b fl x s2
        | Some (Jump j, x, s2) => match caught j x s2 with Some r => Some r | None => sloop d n k b fl x s2 end
        | None => None
        end
      end
    end.
Proof. reflexivity. Qed.

Ltac stp H := first [rewrite ex_Nop in H | rewrite ex_Arm in H | rewrite ex_Plain in H | rewrite ex_SetE in H | rewrite ex_Exit in H | rewrite ex_Return in H | rewrite ex_Break in H | rewrite ex_Continue in H | rewrite ex_Call in H | rewrite ex_Eval in H | rewrite ex_Seq in H | rewrite ex_And in H | rewrite ex_Or in H | rewrite ex_Not in H | rewrite ex_If in H | rewrite ex_While in H | rewrite ex_For in H | rewrite ex_Select in H | rewrite ex_Case in H | rewrite ex_Brace in H | rewrite ex_Subshell in H | rewrite ex_Pipe in H | rewrite ex_Async in H].
Ltac stpg := first [rewrite !ex_Nop | rewrite !ex_Arm | rewrite !ex_Plain | rewrite !ex_SetE | rewrite !ex_Exit | rewrite !ex_Return | rewrite !ex_Break | rewrite !ex_Continue | rewrite !ex_Call | rewrite !ex_Eval | rewrite !ex_Seq | rewrite !ex_And | rewrite !ex_Or | rewrite !ex_Not | rewrite !ex_If | rewrite !ex_While | rewrite !ex_For | rewrite !ex_Select | rewrite !ex_Case | rewrite !ex_Brace | rewrite !ex_Subshell | rewrite !ex_Pipe | rewrite !ex_Async].

Lemma tail_x i x rv (s : st) : tail (Xf i true) x rv s = (let '(o, x', s') := tail (Xf i false) x rv s in (noret o, x', s')).
Proof. unfold tail. cbn. destruct (_ && _); reflexivity. Qed.
Lemma tail_ret fl x rv rv' (s : st) x' s' : tail fl x rv s = (Ret rv', x', s') -> rv' = rv /\ x' = x /\ s' = set_q s rv.
Proof. unfold tail. destruct (x_exec fl); [discriminate|]. destruct (_ && _); [discriminate|]. intros [= <- <- <-]. auto. Qed.
Lemma tail_q fl x rv (s : st) o x' s' : tail fl x rv s = (o, x', s') -> s' = set_q s rv /\ x' = x.
Proof. unfold tail. destruct (x_exec fl); [intros [= <- <- <-]; auto|]. destruct (_ && _); intros [= <- <- <-]; auto. Qed.

(** XEXEC only changes how the end is reported *)
Definition with_noret (r : option (out * bool * st)) := option_map (fun '(o, x, s) => (noret o, x, s)) r.
Lemma some_tail i x rv (s : st) : Some (tail (Xf i true) x rv s) = with_noret (Some (tail (Xf i false) x rv s)).
Proof. rewrite tail_x. destruct (tail _ _ _ _) as [[? ?] ?]. reflexivity. Qed.
Lemma after_x i (r : option (out * bool * st)) :
  finish (Xf i true) r = with_noret (finish (Xf i false) r).
Proof. destruct r as [[[[rv|j] x] s]|]; [apply some_tail|reflexivity|reflexivity]. Qed.

Definition no_sub (c : cmd) : bool := match c with Subshell _ | Pipe _ _ | Nop | Arm _ _ _ => false | _ => true end.
Lemma exec_x n c i x (s : st) : no_sub c = true -> execute d n c (Xf i true) x s = with_noret (execute d n c (Xf i false) x s).
Proof.
  destruct n as [|n]; [reflexivity|]. intros Hc.
  destruct c; try discriminate Hc; stpg; unfold sub_flags; cbn [x_errok x_exec].
  - destruct (d_com d k (s_w s) (s_q s)) as [w [rv|]]; [apply some_tail|reflexivity].
  - apply some_tail.
  - reflexivity.
  - reflexivity.
  - unfold leave. destruct (c_brkcont JBreak n0 s) as [[rv|j] s1]; [apply some_tail|reflexivity].
  - unfold leave. destruct (c_brkcont JCont n0 s) as [[rv|j] s1]; [apply some_tail|reflexivity].
  - destruct (d_fun d (s_w s) f); [|apply some_tail]. destruct (execute d n _ _ _ _) as [[[[rv|[]] x1] s1]|]; try reflexivity; apply some_tail.
  - destruct (execute d n _ _ _ _) as [[[[rv|j] x1] s1]|]; try reflexivity; apply some_tail.
  - apply after_x.
  - destruct (execute d n c1 _ _ _) as [[[[rv|j] x1] s1]|]; try reflexivity. destruct (rv =? 0); [apply after_x|apply some_tail].
  - destruct (execute d n c1 _ _ _) as [[[[rv|j] x1] s1]|]; try reflexivity. destruct (rv =? 0); [apply some_tail|apply after_x].
  - destruct (execute d n c _ _ _) as [[[[rv|j] x1] s1]|]; try reflexivity; apply some_tail.
  - destruct (execute d n c1 _ _ _) as [[[[rv|j] x1] s1]|]; try reflexivity. apply after_x.
  - unfold loop_end. destruct (wloop _ _ _ _ _ _ _ _ _) as [[[[rv|j] x1] s1]|]; try reflexivity. apply some_tail.
  - destruct (d_words d k (s_w s)). unfold loop_end. destruct (floop _ _ _ _ _ _ _ _ _) as [[[[rv|j] x1] s1]|]; try reflexivity. apply some_tail.
  - unfold loop_end. destruct (sloop _ _ _ _ _ _ _) as [[[[rv|j] x1] s1]|]; try reflexivity. apply some_tail.
  - destruct (find_arm d c (d_word d k (s_w s))) as [w [b|]]; [apply after_x|apply some_tail].
  - apply after_x.
  - apply some_tail.
Qed.

(** the status is also $? *)
Lemma after_q fl (r : option (out * bool * st)) rv x s :
  finish fl r = Some (Ret rv, x, s) -> s_q s = rv.
Proof.
  destruct r as [[[[v|j] x1] s1]|]; [|discriminate|discriminate]. intros [= H]. apply tail_ret in H. destruct H as (-> & _ & ->). reflexivity.
Qed.
Lemma st_tail_q fl x rv (s : st) v x' s' : Some (tail fl x rv s) = Some (Ret v, x', s') -> s_q s' = v.
Proof. intros [= H]. apply tail_ret in H. destruct H as (-> & _ & ->). reflexivity. Qed.
Lemma ret_q n c fl x (s : st) rv x' s' : execute d n c fl x s = Some (Ret rv, x', s') -> is_node c = true -> s_q s' = rv.
Proof.
  destruct n as [|n]; [discriminate|]. intros H Hc.
  destruct c; try discriminate Hc; stp H.
  - destruct (d_com d k (s_w s) (s_q s)) as [w [v|]]; [eapply st_tail_q, H|discriminate].
  - eapply st_tail_q, H.
  - discriminate.
  - discriminate.
  - unfold leave in H. destruct (c_brkcont JBreak n0 s) as [[v|j] s1]; [eapply st_tail_q, H|discriminate].
  - unfold leave in H. destruct (c_brkcont JCont n0 s) as [[v|j] s1]; [eapply st_tail_q, H|discriminate].
  - destruct (d_fun d (s_w s) f); [|eapply st_tail_q, H]. destruct (execute d n _ _ _ _) as [[[[v|[]] x1] s1]|]; try discriminate; eapply st_tail_q, H.
  - destruct (execute d n _ _ _ _) as [[[[v|j] x1] s1]|]; try discriminate; eapply st_tail_q, H.
  - eapply after_q, H.
  - destruct (execute d n c1 _ _ _) as [[[[v|j] x1] s1]|]; try discriminate. destruct (v =? 0); [eapply after_q, H|eapply st_tail_q, H].
  - destruct (execute d n c1 _ _ _) as [[[[v|j] x1] s1]|]; try discriminate. destruct (v =? 0); [eapply st_tail_q, H|eapply after_q, H].
  - destruct (execute d n c _ _ _) as [[[[v|j] x1] s1]|]; try discriminate; eapply st_tail_q, H.
  - destruct (execute d n c1 _ _ _) as [[[[v|j] x1] s1]|]; try discriminate. eapply after_q, H.
  - unfold loop_end in H. destruct (wloop _ _ _ _ _ _ _ _ _) as [[[[v|j] x1] s1]|]; try discriminate. eapply st_tail_q, H.
  - destruct (d_words d k (s_w s)). unfold loop_end in H. destruct (floop _ _ _ _ _ _ _ _ _) as [[[[v|j] x1] s1]|]; try discriminate. eapply st_tail_q, H.
  - unfold loop_end in H. destruct (sloop _ _ _ _ _ _ _) as [[[[v|j] x1] s1]|]; try discriminate. eapply st_tail_q, H.
  - destruct (find_arm d c (d_word d k (s_w s))) as [w [b|]]; [eapply after_q, H|eapply st_tail_q, H].
  - eapply after_q, H.
  - cbv zeta in H. eapply after_q, H.
  - destruct (pipes _ _ _ _ _) as [[l s1]|]; [eapply st_tail_q, H|discriminate].
  - eapply st_tail_q, H.
Qed.

(** the shared flag is left alone by calm commands *)
Variable cf : nat -> bool.
Section Kept.
Hypothesis Tame : tame d cf.
Lemma tail_flag fl x rv (s : st) o x' s' : Some (tail fl x rv s) = Some (o, x', s') -> x' = x.
Proof. intros [= H]. apply tail_q in H. apply H. Qed.
Lemma after_flag fl x (r : option (out * bool * st)) o x' s' :
  (forall o x1 s1, r = Some (o, x1, s1) -> x1 = x) ->
  finish fl r = Some (o, x', s') -> x' = x.
Proof.
  intros Hr. destruct r as [[[[v|j] x1] s1]|]; [| |discriminate].
  - intros H. apply tail_flag in H. rewrite H. eapply Hr; reflexivity.
  - intros [= <- <- <-]. eapply Hr; reflexivity.
Qed.
Lemma find_arm_calm c : forall w w' b, find_arm d c w = (w', Some b) -> calm cf c = true -> calm cf b = true.
Proof.
  induction c; cbn; intros w w' bd H Hc; try discriminate.
  apply andb_true_iff in Hc. destruct Hc as [H1 H2]. destruct (d_pat d p w) as [w1 [|]]; [injection H as _ <-; exact H1|eapply IHc2; eauto].
Qed.
Definition flag_kept (n : nat) : Prop :=
  (forall c fl x (s : st) o x' s', x_exec fl = false -> calm cf c = true -> execute d n c fl x s = Some (o, x', s') -> x' = x) /\
  (forall c fl x (s : st) o x' s', calm cf c = true -> elist d n c fl x s = Some (o, x', s') -> x' = x) /\
  (forall u a b fl x rv (s : st) o x' s', calm cf b = true -> wloop d n u a b fl x rv s = Some (o, x', s') -> x' = x) /\
  (forall ws b fl x rv (s : st) o x' s', calm cf b = true -> floop d n ws b fl x x rv s = Some (o, x', s') -> x' = x) /\
  (forall k b fl x (s : st) o x' s', calm cf b = true -> sloop d n k b fl x s = Some (o, x', s') -> x' = x).
Lemma caught_x j x (s : st) o x' s' : caught j x s = Some (o, x', s') -> x' = x.
Proof. unfold caught. destruct (top_pass s); [intros [= <- <- <-]; reflexivity|]. destruct j; congruence. Qed.
Lemma kept n : flag_kept n.
Proof.
  induction n as [|n (IHe & IHl & IHw & IHf & IHs)]; [repeat split; intros; discriminate|].
  assert (Hsub : forall c fl x (s : st) o x' s', calm cf c = true -> execute d n c (sub_flags fl) x s = Some (o, x', s') -> x' = x) by (intros; eapply IHe; eauto; reflexivity).
  split; [|split; [|split; [|split]]].
  - intros c fl x s o x' s' Hf Hc H. destruct c; try discriminate Hc; stp H; cbn [calm] in Hc.
    + congruence.
    + destruct (d_com d k (s_w s) (s_q s)) as [w [v|]]; [eapply tail_flag, H|congruence].
    + eapply tail_flag, H.
    + cbn in H. congruence.
    + cbn in H. congruence.
    + unfold leave in H. destruct (c_brkcont JBreak n0 s) as [[v|j] s1]; [eapply tail_flag, H|congruence].
    + unfold leave in H. destruct (c_brkcont JCont n0 s) as [[v|j] s1]; [eapply tail_flag, H|congruence].
    + destruct (d_fun d (s_w s) f) as [body|] eqn:Ef; [|eapply tail_flag, H].
      destruct (execute d n body _ _ _) as [[[o1 x1] s1]|] eqn:E; [|discriminate].
      assert (x1 = x) by (eapply Hsub; [eapply Tame; eauto|exact E]). subst x1.
      destruct o1 as [v|[]]; try congruence; eapply tail_flag, H.
    + destruct (execute d n _ _ _ _) as [[[[v|j] x1] s1]|]; try congruence; eapply tail_flag, H.
    + eapply after_flag; [|exact H]. intros o1 x1 s1 E. eapply IHl; [|exact E]. exact Hc.
    + apply andb_true_iff in Hc. destruct (execute d n c1 _ _ _) as [[[[v|j] x1] s1]|]; try congruence.
      eapply after_flag; [|exact H]. intros o1 x2 s2 E. eapply Hsub; [|exact E]. destruct (v =? 0); apply Hc.
    + unfold loop_end in H. destruct (wloop _ _ _ _ _ _ _ _ _) as [[[o1 x1] s1]|] eqn:E; [|discriminate]. apply IHw in E; [|exact Hc]. subst x1.
      destruct o1; [eapply tail_flag, H|congruence].
    + destruct (d_words d k (s_w s)). unfold loop_end in H. destruct (floop _ _ _ _ _ _ _ _ _) as [[[o1 x1] s1]|] eqn:E; [|discriminate]. apply IHf in E; [|exact Hc]. subst x1.
      destruct o1; [eapply tail_flag, H|congruence].
    + unfold loop_end in H. destruct (sloop _ _ _ _ _ _ _) as [[[o1 x1] s1]|] eqn:E; [|discriminate]. apply IHs in E; [|exact Hc]. subst x1.
      destruct o1; [eapply tail_flag, H|congruence].
    + destruct (find_arm d c (d_word d k (s_w s))) as [w [b|]] eqn:Ea; [|eapply tail_flag, H].
      eapply after_flag; [|exact H]. intros o1 x1 s1 E. eapply Hsub; [|exact E]. eapply find_arm_calm; eauto.
    + congruence.
    + eapply after_flag; [|exact H]. intros o1 x1 s1 E. eapply Hsub; [|exact E]. exact Hc.
    + cbv zeta in H. rewrite Hf in H. eapply after_flag; [|exact H]. intros o1 x1 s1 E. clear H.
      assert (K : (forall a b, c <> Pipe a b) -> match child d n c fl s with Some (rv, s1) => Some (Ret rv, x, s1) | None => None end = Some (o1, x1, s1) -> x1 = x)
        by (intros _; destruct (child d n c fl s) as [[? ?]|]; congruence).
      destruct c; try (apply K; [congruence|exact E]).
      eapply IHe; [exact Hf| |exact E]. reflexivity.
    + destruct (pipes _ _ _ _ _) as [[l s1]|]; [eapply tail_flag, H|discriminate].
    + eapply tail_flag, H.
  - intros c fl x s o x' s' Hc H. rewrite eq_elist in H.
    assert (K : execute d n c (sub_flags fl) x s = Some (o, x', s') -> x' = x) by (apply Hsub; exact Hc).
    destruct c; try exact (K H). destruct (execute d n c1 _ _ _) as [[[[v|j] x1] s1]|]; try congruence. eapply IHl; [|exact H]. exact Hc.
  - intros u a b fl x rv s o x' s' Hc H. rewrite eq_wloop in H.
    destruct (execute d n a _ _ _) as [[[[v|j] x1] s1]|]; try congruence.
    + destruct (Bool.eqb _ _); [|congruence].
      destruct (execute d n b _ _ _) as [[[o2 x2] s2]|] eqn:E; [|discriminate]. apply Hsub in E; [|exact Hc]. subst x2.
      destruct o2 as [v2|j]; [eapply IHw; eauto|]. destruct (caught j x s2) as [[[o3 x3] s3]|] eqn:E3; [|eapply IHw; eauto].
      apply caught_x in E3. congruence.
    + destruct (caught j x s1) as [[[o3 x3] s3]|] eqn:E3; [|eapply IHw; eauto]. apply caught_x in E3. congruence.
  - intros ws b fl x rv s o x' s' Hc H. rewrite eq_floop in H. destruct ws as [|k ws]; [congruence|].
    destruct (d_set d k (s_w s)); [|congruence].
    destruct (execute d n b _ _ _) as [[[o2 x2] s2]|] eqn:E; [|discriminate]. apply Hsub in E; [|exact Hc]. subst x2.
    destruct o2 as [v2|j]; [eapply IHf; eauto|]. destruct (caught j x s2) as [[[o3 x3] s3]|] eqn:E3; [|eapply IHf; eauto].
    apply caught_x in E3. congruence.
  - intros k b fl x s o x' s' Hc H. rewrite eq_sloop in H. destruct (d_select d k (s_w s)) as [w [v|]]; [|congruence].
    destruct (d_set d v w); [|congruence].
    destruct (execute d n b _ _ _) as [[[o2 x2] s2]|] eqn:E; [|discriminate]. apply Hsub in E; [|exact Hc]. subst x2.
    destruct o2 as [v2|j]; [eapply IHs; eauto|]. destruct (caught j x s2) as [[[o3 x3] s3]|] eqn:E3; [|eapply IHs; eauto].
    apply caught_x in E3. congruence.
Qed.

End Kept.

(** * states and outcomes *)
(** Two readings: [m] = true: plain commands, the flag agrees with the semantics; [m] =
    false: errexit is never on and the flag does not matter. *)
Variable m : bool.
Definition good (c : cmd) : bool := if m then plain cf c else quiet c.
Hypothesis Good : forall w f body, d_fun d w f = Some body -> good body = true /\ (m = true -> cf f = true -> calm cf body = true).
Definition flag (x ex : bool) : Prop := m = true -> x = ex.
Definition off (s : st) : Prop := m = false -> s_e s = false.
Definition igs (fl : xflags) (ign : bool) : Prop := m = true -> ign = x_errok fl.
Lemma tame_m : m = true -> tame d cf.
Proof. intros E w f body H. destruct (Good w f body H) as [H1 H2]. unfold good in H1. rewrite E in H1. auto. Qed.
Lemma good_Seq a b : good (Seq a b) = true -> good a = true /\ good b = true.
Proof. unfold good. destruct m; cbn; rewrite andb_true_iff; tauto. Qed.
Lemma good_And a b : good (And a b) = true -> (m = true -> calm cf a = true) /\ good a = true /\ good b = true.
Proof. unfold good. destruct m; cbn; rewrite !andb_true_iff; intuition discriminate. Qed.
Lemma good_Or a b : good (Or a b) = true -> (m = true -> calm cf a = true) /\ good a = true /\ good b = true.
Proof. unfold good. destruct m; cbn; rewrite !andb_true_iff; intuition discriminate. Qed.
Lemma good_Not a : good (Not a) = true -> good a = true.
Proof. unfold good. destruct m; cbn; tauto. Qed.
Lemma good_If a t e : good (If a t e) = true -> good a = true /\ good t = true /\ good e = true.
Proof. unfold good. destruct m; cbn; rewrite !andb_true_iff; tauto. Qed.
Lemma good_While u a b : good (While u a b) = true -> good a = true /\ (m = true -> calm cf b = true) /\ good b = true.
Proof. unfold good. destruct m; cbn; rewrite !andb_true_iff; intuition discriminate. Qed.
Lemma good_Select k b : good (Select k b) = true -> (m = true -> calm cf b = true) /\ good b = true.
Proof. unfold good. destruct m; cbn; rewrite ?andb_true_iff; intuition discriminate. Qed.
Lemma good_For k b : good (For k b) = true -> good b = true.
Proof. unfold good. destruct m; cbn; tauto. Qed.
Lemma good_Case k b : good (Case k b) = true -> good b = true.
Proof. unfold good. destruct m; cbn; tauto. Qed.
Lemma good_Arm k b n : good (Arm k b n) = true -> good b = true /\ good n = true.
Proof. unfold good. destruct m; cbn; rewrite andb_true_iff; tauto. Qed.
Lemma good_Brace b : good (Brace b) = true -> good b = true.
Proof. unfold good. destruct m; cbn; tauto. Qed.
Lemma good_Subshell c : good (Subshell c) = true -> good c = true /\ is_node c = true.
Proof. unfold good. destruct m; cbn; rewrite andb_true_iff; intros [H1 H2]; (split; [exact H1|destruct c; auto]). Qed.
Lemma good_Pipe a b : good (Pipe a b) = true -> good a = true /\ good b = true /\ is_node a = true /\ is_node b = true.
Proof. unfold good. destruct m; cbn; rewrite !andb_true_iff; intros [[[H1 H2] H3] H4]; (split; [exact H1|split; [exact H2|split; [destruct a; auto|destruct b; auto]]]). Qed.
Definition abs (s : st) : sp := Sp (s_w s) (s_e s) (s_q s).
Definition loops (lv : nat) : list frame := repeat (FLoop false) lv.
Definition marked (k : nat) : list frame := repeat (FLoop true) k.
Definition base (rest : list frame) : Prop := match rest with FLoop _ :: _ => False | _ => True end.
Definition after_jump (lv : nat) (rest : list frame) (k : nat) : list frame := marked (k - 1) ++ loops (lv - k + 1) ++ rest.
Definition ok (lv : nat) (rest : list frame) (o : oc) (p : sp) (r : out * bool * st) : Prop :=
  let '(u, x, s) := r in
  p = abs s /\ off s /\
  match o with
  | Done rv ex => u = Ret rv /\ flag x ex /\ s_k s = loops lv ++ rest
  | Brk k => u = Jump JBreak /\ flag x false /\ (1 <= k <= lv)%nat /\ s_k s = after_jump lv rest k
  | Cnt k => u = Jump JCont /\ flag x false /\ (1 <= k <= lv)%nat /\ s_k s = after_jump lv rest k
  | Retn => u = Jump JReturn /\ flag x false /\ s_k s = loops lv ++ rest
  | Err => u = Jump JError /\ s_k s = loops lv ++ rest
  | Quit => u = Jump JExit
  end.
Lemma flag_refl x : flag x x. Proof. intros _. reflexivity. Qed.
Lemma tail_ok lv rest fl ign x ex rv (s : st) : igs fl ign -> flag x ex -> off s -> x_exec fl = false -> s_k s = loops lv ++ rest ->
  exists o p', settle ign ex rv (abs s) = (o, p') /\ ok lv rest o p' (tail fl x rv s).
Proof.
  intros Hg Hx He Hf Hk. unfold settle, tail. rewrite Hf. eexists _, _. split; [reflexivity|].
  change (p_e (abs s)) with (s_e s). change (s_e (set_q s rv)) with (s_e s).
  destruct m eqn:Em.
  - rewrite (Hx Em), (Hg Em). destruct (_ && s_e s); cbn; repeat split; auto.
  - rewrite (He Em). rewrite !andb_false_r. cbn. repeat split; auto.
Qed.
Lemma after_ok lv rest fl ign ob p1 r1 r : igs fl ign -> x_exec fl = false -> ok lv rest ob p1 r1 -> finish fl (Some r1) = Some r ->
  exists o p', ends ign ob p1 = (o, p') /\ ok lv rest o p' r.
Proof.
  intros Hg Hf Hok Hr. destruct r1 as [[u x] s]. destruct Hok as (-> & He & Hok).
  destruct ob; cbn [ends].
  - destruct Hok as (-> & Hx & Hk). injection Hr as <-. apply tail_ok; assumption.
  - destruct Hok as (-> & Hx & Hk). injection Hr as <-. eexists _, _. split; [reflexivity|]. cbn. tauto.
  - destruct Hok as (-> & Hx & Hk). injection Hr as <-. eexists _, _. split; [reflexivity|]. cbn. tauto.
  - destruct Hok as (-> & Hx & Hk). injection Hr as <-. eexists _, _. split; [reflexivity|]. cbn. tauto.
  - destruct Hok as (-> & Hk). injection Hr as <-. eexists _, _. split; [reflexivity|]. cbn. tauto.
  - rewrite Hok in Hr. injection Hr as <-. eexists _, _. split; [reflexivity|]. cbn. tauto.
Qed.
Lemma ends_idem ign ob (p1 : sp) o p' : ends ign ob p1 = (o, p') -> ends ign o p' = (o, p').
Proof.
  destruct ob; cbn [ends]; try (intros [= <- <-]; reflexivity). unfold settle.
  destruct (_ && p_e p1) eqn:E; intros [= <- <-]; [reflexivity|]. cbn. unfold settle. change (p_e (with_q p1 rv)) with (p_e p1). rewrite E. reflexivity.
Qed.
Lemma jump_int lv rest o p j x (s : st) : ok lv rest o p (Jump j, x, s) -> interrupts o.
Proof. destruct o; cbn; intuition discriminate. Qed.
Lemma jump_flag lv rest o p j x y (s : st) : flag y false -> ok lv rest o p (Jump j, x, s) -> ok lv rest o p (Jump j, y, s).
Proof. destruct o; cbn; intuition discriminate. Qed.
Lemma ret_done lv rest o p v x (s : st) : ok lv rest o p (Ret v, x, s) -> exists ex, o = Done v ex /\ flag x ex /\ p = abs s /\ off s /\ s_k s = loops lv ++ rest.
Proof. destruct o; cbn; intros (H1 & H2 & H3); try (destruct H3; discriminate); try discriminate. destruct H3 as ([= <-] & H4 & H5). eauto 10. Qed.
Lemma error_ok lv rest (s : st) (x : bool) : off s -> s_k s = loops lv ++ rest ->
  exists o p', fails (abs s) = (o, p') /\ ok lv rest o p' (Jump (error_jump s), x, set_q s 1).
Proof.
  intros He Hk. unfold fails, error_jump. eexists _, _. split; [reflexivity|]. change (p_e (abs s)) with (s_e s). destruct (s_e s) eqn:Es; cbn; auto.
Qed.

(** ** break and continue *)
Lemma mark_ok lv : forall n rest, base rest -> 0 < n ->
  mark n (loops lv ++ rest) =
  if n <=? Z.of_nat lv then (after_jump lv rest (Z.to_nat n), 0) else (marked lv ++ rest, n - Z.of_nat lv).
Proof.
  induction lv as [|lv IH]; intros n rest Hb Hn.
  - cbn [loops repeat app]. destruct (n <=? Z.of_nat 0) eqn:E; [lia|]. replace (n - Z.of_nat 0) with n by lia. destruct rest as [|[]]; try reflexivity. contradiction.
  - unfold loops. cbn [repeat app mark]. destruct (n - 1 =? 0) eqn:E1.
    + assert (n = 1) by lia. subst n. replace (1 <=? Z.of_nat (Datatypes.S lv)) with true by (symmetry; apply Z.leb_le; lia).
      unfold after_jump. change (Z.to_nat 1) with 1%nat. replace (Datatypes.S lv - 1 + 1)%nat with (Datatypes.S lv) by lia. reflexivity.
    + fold (loops lv). rewrite IH by (auto; lia).
      replace (n <=? Z.of_nat (Datatypes.S lv)) with (n - 1 <=? Z.of_nat lv) by (apply eq_true_iff_eq; rewrite !Z.leb_le; lia).
      destruct (n - 1 <=? Z.of_nat lv) eqn:E2.
      * f_equal. unfold after_jump. replace (Z.to_nat n - 1)%nat with (Datatypes.S (Z.to_nat (n - 1) - 1)) by lia.
        cbn [marked repeat app]. f_equal. unfold marked. do 2 f_equal. f_equal. lia.
      * f_equal. lia.
Qed.
Lemma unmark_ok q : forall rest, base rest -> unmark_last (marked (Datatypes.S q) ++ rest) = marked q ++ FLoop false :: rest.
Proof.
  induction q as [|q IH]; intros rest Hb.
  - cbn. destruct rest as [|[] rest]; try reflexivity. contradiction.
  - change (marked (Datatypes.S (Datatypes.S q)) ++ rest) with (FLoop true :: FLoop true :: (marked q ++ rest)).
    cbn [unmark_last]. change (FLoop true :: marked q ++ rest) with (marked (Datatypes.S q) ++ rest). cbn [unmark_last] in IH. 
    specialize (IH rest Hb). cbn [marked repeat app] in IH |- *. f_equal. exact IH.
Qed.
Lemma brk_ok j lv rest fl ign n (s : st) x (mk : nat -> oc) : igs fl ign -> flag x false -> off s -> mk = Brk /\ j = JBreak \/ mk = Cnt /\ j = JCont -> base rest -> x_exec fl = false -> s_k s = loops lv ++ rest ->
  exists o p', ok lv rest o p' (leave fl x (c_brkcont j n s)) /\
    (n <= 0 /\ fails (abs s) = (o, p') \/ 0 < n /\ lv = O /\ settle ign false 0 (abs s) = (o, p') \/
     0 < n /\ (0 < lv)%nat /\ o = mk (Nat.min (Z.to_nat n) lv) /\ p' = abs s).
Proof.
  intros Hg Hx He Hm Hb Hf Hk. unfold c_brkcont. destruct (n <=? 0) eqn:En.
  - destruct (error_ok lv rest s x He Hk) as (o & p' & E & Hok). exists o, p'. split; [exact Hok|]. left. split; [lia|exact E].
  - apply Z.leb_gt in En. rewrite Hk, mark_ok by assumption. destruct (n <=? Z.of_nat lv) eqn:E.
    + cbn [Z.eqb leave]. exists (mk (Nat.min (Z.to_nat n) lv)), (abs s). split; [|right; right; repeat split; lia].
      replace (Nat.min (Z.to_nat n) lv) with (Z.to_nat n) by lia.
      destruct Hm as [[-> ->]|[-> ->]]; cbn; repeat split; auto; lia.
    + destruct (n - Z.of_nat lv =? 0) eqn:E0; [lia|]. destruct (n =? n - Z.of_nat lv) eqn:E1.
      * assert (lv = O) by lia. subst lv. cbn [leave]. cbn [marked repeat app].
        replace (set_k s rest) with s by (destruct s; cbn in Hk |- *; unfold set_k; cbn; congruence).
        destruct (tail_ok 0 rest fl ign x false 0 s Hg Hx He Hf Hk) as (o & p' & Es & Hok). exists o, p'. split; [exact Hok|]. right; left. repeat split; auto.
      * destruct lv as [|lv]; [lia|]. rewrite unmark_ok by assumption. cbn [leave].
        exists (mk (Nat.min (Z.to_nat n) (Datatypes.S lv))), (abs s). split; [|right; right; repeat split; lia].
        replace (Nat.min (Z.to_nat n) (Datatypes.S lv)) with (Datatypes.S lv) by lia.
        assert (Ha : marked lv ++ FLoop false :: rest = after_jump (Datatypes.S lv) rest (Datatypes.S lv)).
        { unfold after_jump. replace (Datatypes.S lv - 1)%nat with lv by lia. replace (Datatypes.S lv - Datatypes.S lv + 1)%nat with 1%nat by lia. reflexivity. }
        destruct Hm as [[-> ->]|[-> ->]]; cbn [ok]; rewrite Ha; repeat split; auto; lia.
Qed.
Lemma caught_ok lv rest ob p1 j x (s : st) : base rest -> ok (Datatypes.S lv) rest ob p1 (Jump j, x, s) ->
  match caught j x s with
  | Some (u, x', s') => exists o, loop_verdict ob = Leaves o /\ ok lv rest o p1 (u, x', pop s')
  | None => loop_verdict ob = Again 0 false /\ s_k s = loops (Datatypes.S lv) ++ rest /\ flag x false /\ p1 = abs s /\ off s
  end.
Proof.
  intros Hb (-> & He & H). unfold caught, top_pass. destruct ob as [rv ex|k|k| | |].
  - destruct H as (H & _). discriminate.
  - destruct H as ([= ->] & Hx & Hk & Hs). rewrite Hs. destruct k as [|[|k]]; [lia| |].
    + unfold after_jump. replace (Datatypes.S lv - 1 + 1)%nat with (Datatypes.S lv) by lia. cbn [Nat.sub marked repeat app loops].
      exists (Done 0 false). split; [reflexivity|]. cbn. repeat split; auto using flag_refl. rewrite Hs. unfold after_jump. replace (Datatypes.S lv - 1 + 1)%nat with (Datatypes.S lv) by lia. reflexivity.
    + unfold after_jump at 1. replace (Datatypes.S (Datatypes.S k) - 1)%nat with (Datatypes.S k) by lia. cbn [marked repeat app].
      exists (Brk (Datatypes.S k)). split; [reflexivity|]. cbn [ok pop set_k s_k]. repeat split; auto; try lia. rewrite Hs. unfold after_jump.
      replace (Datatypes.S (Datatypes.S k) - 1)%nat with (Datatypes.S k) by lia. cbn [marked repeat app tl]. replace (Datatypes.S k - 1)%nat with k by lia.
      reflexivity.
  - destruct H as ([= ->] & Hx & Hk & Hs). rewrite Hs. destruct k as [|[|k]]; [lia| |].
    + unfold after_jump. replace (Datatypes.S lv - 1 + 1)%nat with (Datatypes.S lv) by lia. cbn [Nat.sub marked repeat app loops]. repeat split; auto.
    + unfold after_jump at 1. replace (Datatypes.S (Datatypes.S k) - 1)%nat with (Datatypes.S k) by lia. cbn [marked repeat app].
      exists (Cnt (Datatypes.S k)). split; [reflexivity|]. cbn [ok pop set_k s_k]. repeat split; auto; try lia. rewrite Hs. unfold after_jump.
      replace (Datatypes.S (Datatypes.S k) - 1)%nat with (Datatypes.S k) by lia. cbn [marked repeat app tl]. replace (Datatypes.S k - 1)%nat with k by lia.
      reflexivity.
  - destruct H as ([= ->] & Hx & Hs). rewrite Hs. cbn [loops repeat app]. exists Retn. split; [reflexivity|]. cbn. rewrite Hs. repeat split; auto.
  - destruct H as ([= ->] & Hs). rewrite Hs. cbn [loops repeat app]. exists Err. split; [reflexivity|]. cbn. rewrite Hs. repeat split; auto.
  - injection H as ->. destruct (s_k s) as [|[[|]| |] ?]; exists Quit; (split; [reflexivity|]); repeat split; auto.
Qed.
Lemma in_fun_loops lv rest : in_function (loops lv ++ rest) = in_function rest.
Proof. induction lv; [reflexivity|]. exact IHlv. Qed.

(** ** pipelines and case *)
Lemma last_failure_ok l : forall rv, last_failure l rv = last (filter (fun v => negb (v =? 0)) l) rv.
Proof.
  induction l as [|a l IH]; intros rv; [reflexivity|]. cbn [last_failure filter]. rewrite IH. destruct (a =? 0); cbn [negb]; [reflexivity|].
  clear IH. induction (filter _ l) as [|b l2 IH]; [reflexivity|]. cbn [last]. destruct l2; [reflexivity|]. exact IH.
Qed.
Lemma find_arm_good c : forall w w' b, find_arm d c w = (w', Some b) -> good c = true -> good b = true.
Proof.
  induction c; cbn [find_arm]; intros w w' bd H Hc; try discriminate.
  apply good_Arm in Hc. destruct Hc as [H1 H2]. destruct (d_pat d p w) as [w1 [|]]; [injection H as _ <-; exact H1|eapply IHc2; eauto].
Qed.
Lemma find_arm_ok c : forall w w' o, find_arm d c w = (w', o) -> selects d c w w' o.
Proof.
  induction c; cbn [find_arm]; intros w w' o H; try (injection H as <- <-; constructor; congruence).
  destruct (d_pat d p w) as [w1 [|]] eqn:E; [injection H as <- <-; constructor; exact E|]. econstructor; [exact E|]. apply IHc2, H.
Qed.

(** * soundness *)
Hypothesis Join : join_law d.
Definition s_execute (n : nat) : Prop := forall c fl ign x (s : st) r lv rest, igs fl ign ->
  execute d n c fl x s = Some r -> good c = true -> flag x false -> off s -> base rest -> s_k s = loops lv ++ rest -> x_exec fl = false ->
  exists o p', run d ign lv (in_function rest) c (abs s) o p' /\ ok lv rest o p' r.
Definition s_execx (n : nat) : Prop := forall c i ign x (s : st) u x' s', (m = true -> ign = i) ->
  execute d n c (Xf i true) x s = Some (u, x', s') -> good c = true -> is_node c = true -> flag x false -> off s -> s_k s = [] ->
  exists o p', run d ign 0 false c (abs s) o p' /\ exit_code o p' = s_q s' mod 256 /\
    (forall p, d_join d p (p_w p') = d_join d p (s_w s')) /\ (forall rv, u = Ret rv -> s_q s' = rv).
Definition s_child (n : nat) : Prop := forall c fl ign (s : st) rv s', igs fl ign ->
  child d n c fl s = Some (rv, s') -> good c = true -> is_node c = true -> off s ->
  forked d ign c (abs s) rv (abs s') /\ s_k s' = s_k s /\ off s'.
Definition s_pipes (n : nat) : Prop := forall c fl ign (s : st) l s', igs fl ign ->
  pipes d n c fl s = Some (l, s') -> good c = true -> is_node c = true -> off s ->
  piped d ign c (abs s) l (abs s') /\ s_k s' = s_k s /\ off s'.
Definition s_elist (n : nat) : Prop := forall c fl ign x (s : st) r lv rest, igs fl ign ->
  elist d n c fl x s = Some r -> good c = true -> flag x false -> off s -> base rest -> s_k s = loops lv ++ rest ->
  exists ob p1, ok lv rest ob p1 r /\
    match c with
    | Seq _ _ => forall o p', ends ign ob p1 = (o, p') -> run d ign lv (in_function rest) c (abs s) o p'
    | _ => run d ign lv (in_function rest) c (abs s) ob p1
    end.
Definition okl (lv : nat) (rest : list frame) (o : oc) (p : sp) (r : out * bool * st) : Prop := let '(u, x, s) := r in ok lv rest o p (u, x, pop s).
Definition s_wloop (n : nat) : Prop := forall u a b fl ign x ex rv (s : st) r lv rest, igs fl ign ->
  wloop d n u a b fl x rv s = Some r -> good a = true -> (m = true -> calm cf b = true) -> good b = true -> flag x false -> flag x ex -> off s -> base rest -> s_k s = loops (Datatypes.S lv) ++ rest ->
  exists o p', whiles d ign lv (in_function rest) u a b rv ex (abs s) o p' /\ okl lv rest o p' r.
Definition s_floop (n : nat) : Prop := forall ws b fl ign save x ex rv (s : st) r lv rest, igs fl ign ->
  floop d n ws b fl save x rv s = Some r -> good b = true -> flag save false -> flag x ex -> off s -> base rest -> s_k s = loops (Datatypes.S lv) ++ rest ->
  exists o p', fors d ign lv (in_function rest) b ws rv ex (abs s) o p' /\ okl lv rest o p' r.
Definition s_sloop (n : nat) : Prop := forall k b fl ign x (s : st) r lv rest, igs fl ign ->
  sloop d n k b fl x s = Some r -> (m = true -> calm cf b = true) -> good b = true -> flag x false -> off s -> base rest -> s_k s = loops (Datatypes.S lv) ++ rest ->
  exists o p', sels d ign lv (in_function rest) k b (abs s) o p' /\ okl lv rest o p' r.

Lemma loop_end_ok lv rest fl ign ob p1 r1 r : igs fl ign -> x_exec fl = false -> okl lv rest ob p1 r1 -> loop_end fl (Some r1) = Some r ->
  exists o p', ends ign ob p1 = (o, p') /\ ok lv rest o p' r.
Proof.
  intros Hg Hf Hok Hr. destruct r1 as [[u x] s]. apply (after_ok lv rest fl ign ob p1 (u, x, pop s)); [exact Hg|exact Hf|exact Hok|destruct u; exact Hr].
Qed.
Ltac andb H := repeat (apply andb_true_iff in H; let H' := fresh "P" in destruct H as [H H']).
Ltac after Hg Hf Hok E H := let o := fresh "o" in let p' := fresh "p'" in let Ee := fresh "Ee" in let Hok' := fresh "Hok'" in
  destruct (after_ok _ _ _ _ _ _ _ _ Hg Hf Hok H) as (o & p' & Ee & Hok'); exists o, p'; split; [|exact Hok'].

Lemma step_execute n : s_execute n -> s_child n -> s_pipes n -> s_elist n -> s_wloop n -> s_floop n -> s_sloop n -> s_execute (Datatypes.S n).
Proof.
  intros IHe IHc IHp IHl IHw IHf IHs c fl ign x s r lv rest Hg H Hp Hx He Hb Hk Hf.
  assert (Isub : forall c x (s : st) r lv rest, execute d n c (sub_flags fl) x s = Some r -> good c = true -> flag x false -> off s -> base rest -> s_k s = loops lv ++ rest ->
    exists o p', run d ign lv (in_function rest) c (abs s) o p' /\ ok lv rest o p' r) by (intros c0 x0 s0 r0 lv0 rest0 H1 H2 H3 H4 H5 H6; exact (IHe c0 (sub_flags fl) ign x0 s0 r0 lv0 rest0 Hg H1 H2 H3 H4 H5 H6 eq_refl)).
  assert (Iign : forall c x (s : st) r lv rest, execute d n c ignore x s = Some r -> good c = true -> flag x false -> off s -> base rest -> s_k s = loops lv ++ rest ->
    exists o p', run d true lv (in_function rest) c (abs s) o p' /\ ok lv rest o p' r) by (intros c0 x0 s0 r0 lv0 rest0 H1 H2 H3 H4 H5 H6; exact (IHe c0 ignore true x0 s0 r0 lv0 rest0 (fun _ => eq_refl) H1 H2 H3 H4 H5 H6 eq_refl)).
  assert (Hg' : igs (sub_flags fl) ign) by exact Hg.
  destruct c; stp H.
  - injection H as <-. eexists _, _. split; [constructor|]. repeat split; auto.
  - destruct (d_com d k (s_w s) (s_q s)) as [w [v|]] eqn:E; injection H as <-.
    + destruct (tail_ok lv rest fl ign x false v (set_w s w) Hg Hx He Hf Hk) as (o & p' & Es & Hok). exists o, p'. split; [eapply r_plain; [exact E|exact Es]|exact Hok].
    + destruct (error_ok lv rest (set_w s w) x He Hk) as (o & p' & Es & Hok). exists o, p'. split; [eapply r_plain_err; [exact E|exact Es]|exact Hok].
  - injection H as <-. destruct (tail_ok lv rest fl ign x false 0 (set_e s b) Hg Hx) as (o & p' & Es & Hok); [|exact Hf|exact Hk|].
    { intros Em. unfold good in Hp. rewrite Em in Hp. cbn in Hp |- *. destruct b; [discriminate|reflexivity]. }
    exists o, p'. split; [apply r_sete; exact Es|exact Hok].
  - injection H as <-. eexists _, _. split; [apply r_exit|]. destruct n0; cbn; auto.
  - injection H as <-. eexists _, _. split; [apply r_return|]. unfold c_exitreturn. cbn [andb leave].
    assert (Ei : in_function (s_k s) = in_function rest) by (rewrite Hk, in_fun_loops; reflexivity).
    destruct n0; cbn [set_q s_k]; rewrite Ei; destruct (in_function rest); cbn; auto.
  - injection H as <-. destruct (brk_ok JBreak lv rest fl ign n0 s x Brk Hg Hx He (or_introl (conj eq_refl eq_refl)) Hb Hf Hk) as (o & p' & Hok & [[Hn E]|[(Hn & -> & E)|(Hn & Hl & -> & ->)]]).
    + exists o, p'. split; [apply r_break_bad; assumption|exact Hok].
    + exists o, p'. split; [apply r_break_none; assumption|exact Hok].
    + eexists _, _. split; [apply r_break; assumption|exact Hok].
  - injection H as <-. destruct (brk_ok JCont lv rest fl ign n0 s x Cnt Hg Hx He (or_intror (conj eq_refl eq_refl)) Hb Hf Hk) as (o & p' & Hok & [[Hn E]|[(Hn & -> & E)|(Hn & Hl & -> & ->)]]).
    + exists o, p'. split; [apply r_continue_bad; assumption|exact Hok].
    + exists o, p'. split; [apply r_continue_none; assumption|exact Hok].
    + eexists _, _. split; [apply r_continue; assumption|exact Hok].
  - destruct (d_fun d (s_w s) f) as [body|] eqn:Ef.
    + destruct (execute d n body _ _ _) as [[[u x1] s1]|] eqn:E; [|discriminate].
      destruct (Good _ _ _ Ef) as [Hpb _].
      destruct (Isub body _ _ _ 0%nat (FFunc :: s_k s) E Hpb Hx He I eq_refl) as (ob & p1 & Hrun & (-> & He1 & Hok)). cbn [in_function existsb] in Hrun.
      change (abs (set_k (set_w s (d_enter d f (s_w s))) (FFunc :: s_k s))) with (with_w (abs s) (d_enter d f (p_w (abs s)))) in Hrun.
      set (s2 := pop (set_w s1 (d_leave d (s_w s) (s_w s1)))) in *.
      assert (Hk2 : s_k s1 = loops 0 ++ FFunc :: s_k s -> s_k s2 = loops lv ++ rest).
      { intros Hs1. subst s2. cbn. rewrite Hs1. exact Hk. }
      assert (He2 : off s2) by exact He1.
      destruct ob as [rv ex|k|k| | |].
      * destruct Hok as (-> & Hx1 & Hs1). injection H as <-. destruct (tail_ok lv rest fl ign x1 ex rv (set_q s2 rv) Hg Hx1 He2 Hf (Hk2 Hs1)) as (o & p' & Es & Hok).
        exists o, p'. split; [|exact Hok]. eapply r_call; [exact Ef|exact Hrun|reflexivity|exact Es].
      * lia.
      * lia.
      * destruct Hok as (-> & Hx1 & Hs1). injection H as <-. destruct (tail_ok lv rest fl ign x1 false (s_q s2) s2 Hg Hx1 He2 Hf (Hk2 Hs1)) as (o & p' & Es & Hok).
        exists o, p'. split; [|exact Hok]. eapply r_call_ret; [exact Ef|exact Hrun|reflexivity|exact Es].
      * destruct Hok as (-> & Hs1). injection H as <-. destruct (tail_ok lv rest fl ign x1 x1 (s_q s2) s2 Hg (flag_refl _) He2 Hf (Hk2 Hs1)) as (o & p' & Es & Hok).
        exists o, p'. split; [|exact Hok]. eapply r_call_err; [exact Ef|exact Hrun|reflexivity|exact Es].
      * subst u. injection H as <-. eexists _, _. split; [eapply r_call_quit; [exact Ef|exact Hrun]|]. repeat split; assumption.
    + injection H as <-. destruct (tail_ok lv rest fl ign x false 127 s Hg Hx He Hf Hk) as (o & p' & Es & Hok). exists o, p'. split; [apply r_call_none; assumption|exact Hok].
  - assert (Em : m = false) by (unfold good in Hp; destruct m; [discriminate|reflexivity]).
    assert (Hpc : good c = true) by (unfold good in Hp |- *; rewrite Em in *; exact Hp). cbv zeta in H.
    destruct (execute d n c _ _ _) as [[[u x1] s1]|] eqn:E; [|discriminate].
    destruct (IHe c (Xf false false) ign false _ _ 0%nat (FParse :: s_k s) (fun Ht => ltac:(congruence)) E Hpc (flag_refl _)) as (ob & p1 & Hrun & (-> & He1 & Hok)); [intros _; reflexivity|exact I|reflexivity|reflexivity|].
    assert (Hs0 : abs (set_k (set_e s false) (FParse :: s_k s)) = abs s) by (unfold abs; cbn; rewrite (He Em); reflexivity). rewrite Hs0 in Hrun.
    cbn [x_errok in_function existsb orb] in Hrun. fold (in_function (s_k s)) in Hrun. rewrite Hk, in_fun_loops in Hrun.
    assert (Heq : set_e s1 (s_e s) = s1) by (rewrite (He Em), <- (He1 Em); destruct s1; reflexivity).
    destruct ob as [rv ex|k|k| | |].
    + destruct Hok as (-> & Hx1 & Hs1). injection H as <-.
      destruct (tail_ok lv rest fl ign x ex rv (pop (set_q s1 rv))) as (o & p' & Es & Hok); [exact Hg|intros Ht; congruence|exact He1|exact Hf|cbn; rewrite Hs1; exact Hk|].
      exists o, p'. split; [eapply r_eval; [exact Hrun|exact Es]|].
      replace (set_e (set_q s1 rv) (s_e s)) with (set_q s1 rv) by (rewrite <- Heq at 1; reflexivity). exact Hok.
    + lia.
    + lia.
    + destruct Hok as (-> & Hx1 & Hs1). injection H as <-. eexists _, _. split; [apply r_eval_jump; [exact Hrun|exact I]|].
      cbn. rewrite Hs1. repeat split; auto.
    + destruct Hok as (-> & Hs1). injection H as <-. eexists _, _. split; [apply r_eval_jump; [exact Hrun|exact I]|].
      cbn. rewrite Hs1. repeat split; auto.
    + subst u. injection H as <-. eexists _, _. split; [apply r_eval_jump; [exact Hrun|exact I]|]. repeat split; auto.
  - destruct (elist d n _ _ _ _) as [r1|] eqn:E; [|discriminate].
    destruct (IHl _ _ _ _ _ _ lv rest Hg' E Hp Hx He Hb Hk) as (ob & p1 & Hok & Hrun). after Hg Hf Hok E H. apply Hrun. exact Ee.
  - apply good_And in Hp. destruct Hp as (Hc1 & Hp1 & Hp2). destruct (execute d n c1 _ _ _) as [[[[v|j] x1] s1]|] eqn:E; [| |discriminate].
    + assert (Hx1 : flag x1 false). { intros Em. rewrite <- (Hx Em). eapply (proj1 (kept (tame_m Em) n)); [| |exact E]; [reflexivity|apply Hc1, Em]. }
      destruct (Iign _ _ _ _ lv rest E Hp1 Hx He Hb Hk) as (oa & p1 & Hrun & Hok). apply ret_done in Hok. destruct Hok as (ex & -> & _ & -> & He1 & Hk1).
      destruct (v =? 0) eqn:Ev.
      * apply Z.eqb_eq in Ev. subst v. destruct (execute d n c2 _ _ _) as [r1|] eqn:E2; [|discriminate].
        destruct (Isub _ _ _ _ lv rest E2 Hp2 Hx1 He1 Hb Hk1) as (ob & p2 & Hrun2 & Hok2). after Hg Hf Hok2 E2 H. eapply r_and; [exact Hrun|exact Hrun2|exact Ee].
      * injection H as <-. eexists _, _. split; [eapply r_and_fail; [exact Hrun|lia]|]. unfold tail. cbn [x_exec x_errok]. rewrite Hf.
        cbn [negb]. rewrite !andb_false_r. cbn. auto using flag_refl.
    + injection H as <-. destruct (Iign _ _ _ _ lv rest E Hp1 Hx He Hb Hk) as (oa & p1 & Hrun & Hok). exists oa, p1. split; [|exact Hok].
      apply r_and_jump; [exact Hrun|eapply jump_int, Hok].
  - apply good_Or in Hp. destruct Hp as (Hc1 & Hp1 & Hp2). destruct (execute d n c1 _ _ _) as [[[[v|j] x1] s1]|] eqn:E; [| |discriminate].
    + assert (Hx1 : flag x1 false). { intros Em. rewrite <- (Hx Em). eapply (proj1 (kept (tame_m Em) n)); [| |exact E]; [reflexivity|apply Hc1, Em]. }
      destruct (Iign _ _ _ _ lv rest E Hp1 Hx He Hb Hk) as (oa & p1 & Hrun & Hok). apply ret_done in Hok. destruct Hok as (ex & -> & _ & -> & He1 & Hk1).
      destruct (v =? 0) eqn:Ev.
      * apply Z.eqb_eq in Ev. subst v. injection H as <-. eexists _, _. split; [eapply r_or_ok; exact Hrun|]. unfold tail. cbn [x_exec x_errok]. rewrite Hf.
        cbn [negb]. rewrite !andb_false_r. cbn. auto using flag_refl.
      * destruct (execute d n c2 _ _ _) as [r1|] eqn:E2; [|discriminate].
        destruct (Isub _ _ _ _ lv rest E2 Hp2 Hx1 He1 Hb Hk1) as (ob & p2 & Hrun2 & Hok2). after Hg Hf Hok2 E2 H. eapply r_or; [exact Hrun|lia|exact Hrun2|exact Ee].
    + injection H as <-. destruct (Iign _ _ _ _ lv rest E Hp1 Hx He Hb Hk) as (oa & p1 & Hrun & Hok). exists oa, p1. split; [|exact Hok].
      apply r_or_jump; [exact Hrun|eapply jump_int, Hok].
  - apply good_Not in Hp. destruct (execute d n c _ _ _) as [[[[v|j] x1] s1]|] eqn:E; [| |discriminate].
    + destruct (Iign _ _ _ _ lv rest E Hp Hx He Hb Hk) as (oa & p1 & Hrun & Hok). apply ret_done in Hok. destruct Hok as (ex & -> & _ & -> & He1 & Hk1).
      injection H as <-. eexists _, _. split; [eapply r_not; exact Hrun|]. unfold tail. cbn [x_exec x_errok]. rewrite Hf.
      cbn [negb]. rewrite !andb_false_r. cbn. auto using flag_refl.
    + injection H as <-. destruct (Iign _ _ _ _ lv rest E Hp Hx He Hb Hk) as (oa & p1 & Hrun & Hok). exists oa, p1. split; [|exact Hok].
      apply r_not_jump; [exact Hrun|eapply jump_int, Hok].
  - apply good_If in Hp. destruct Hp as (Hp1 & Hp2 & Hp3). destruct (execute d n c1 _ _ _) as [[[[v|j] x1] s1]|] eqn:E; [| |discriminate].
    + destruct (Iign _ _ _ _ lv rest E Hp1 (flag_refl _) He Hb Hk) as (oa & p1 & Hrun & Hok). apply ret_done in Hok. destruct Hok as (ex & -> & _ & -> & He1 & Hk1).
      destruct (execute d n (if v =? 0 then c2 else c3) _ _ _) as [r1|] eqn:E2; [|discriminate].
      assert (Hp4 : good (if v =? 0 then c2 else c3) = true) by (destruct (v =? 0); assumption).
      destruct (Isub _ _ _ _ lv rest E2 Hp4 Hx He1 Hb Hk1) as (ob & p2 & Hrun2 & Hok2). after Hg Hf Hok2 E2 H. eapply r_if; [exact Hrun|exact Hrun2|exact Ee].
    + injection H as <-. destruct (Iign _ _ _ _ lv rest E Hp1 (flag_refl _) He Hb Hk) as (oa & p1 & Hrun & Hok). exists oa, p1. split; [|eapply jump_flag; [exact Hx|exact Hok]].
      apply r_if_jump; [exact Hrun|eapply jump_int, Hok].
  - apply good_While in Hp. destruct Hp as (Hp1 & Hc & Hp2). destruct (wloop _ _ _ _ _ _ _ _ _) as [r1|] eqn:E; [|discriminate].
    destruct (IHw _ _ _ _ _ _ false _ _ _ lv rest Hg' E Hp1 Hc Hp2 Hx Hx He Hb) as (ob & p1 & Hrun & Hok); [cbn; rewrite Hk; reflexivity|].
    destruct (loop_end_ok _ _ _ _ _ _ _ _ Hg Hf Hok H) as (o & p' & Ee & Hok'). exists o, p'. split; [|exact Hok']. eapply r_while; [exact Hrun|exact Ee].
  - apply good_For in Hp. destruct (d_words d k (s_w s)) as [w ws] eqn:Ew. destruct (floop _ _ _ _ _ _ _ _ _) as [r1|] eqn:E; [|discriminate].
    destruct (IHf _ _ _ _ _ _ false _ _ _ lv rest Hg' E Hp Hx Hx He Hb) as (ob & p1 & Hrun & Hok); [cbn; rewrite Hk; reflexivity|].
    destruct (loop_end_ok _ _ _ _ _ _ _ _ Hg Hf Hok H) as (o & p' & Ee & Hok'). exists o, p'. split; [|exact Hok']. eapply r_for; [exact Ew|exact Hrun|exact Ee].
  - apply good_Select in Hp. destruct Hp as [Hc Hp]. destruct (sloop _ _ _ _ _ _ _) as [r1|] eqn:E; [|discriminate].
    destruct (IHs _ _ _ _ _ _ _ lv rest Hg' E Hc Hp Hx He Hb) as (ob & p1 & Hrun & Hok); [cbn; rewrite Hk; reflexivity|].
    destruct (loop_end_ok _ _ _ _ _ _ _ _ Hg Hf Hok H) as (o & p' & Ee & Hok'). exists o, p'. split; [|exact Hok']. eapply r_select; [exact Hrun|exact Ee].
  - apply good_Case in Hp. destruct (find_arm d c (d_word d k (s_w s))) as [w [b|]] eqn:Ea.
    + destruct (execute d n b _ _ _) as [r1|] eqn:E2; [|discriminate].
      destruct (Isub _ _ _ _ lv rest E2 (find_arm_good _ _ _ _ Ea Hp) Hx He Hb Hk) as (ob & p2 & Hrun2 & Hok2). after Hg Hf Hok2 E2 H.
      eapply r_case; [apply find_arm_ok; exact Ea|exact Hrun2|exact Ee].
    + injection H as <-. destruct (tail_ok lv rest fl ign x false 0 (set_w s w) Hg Hx He Hf Hk) as (o & p' & Es & Hok). exists o, p'. split; [|exact Hok].
      eapply r_case_none; [apply find_arm_ok; exact Ea|exact Es].
  - injection H as <-. eexists _, _. split; [constructor|]. repeat split; auto.
  - apply good_Brace in Hp. destruct (execute d n c _ _ _) as [r1|] eqn:E2; [|discriminate].
    destruct (Isub _ _ _ _ lv rest E2 Hp Hx He Hb Hk) as (ob & p2 & Hrun2 & Hok2). after Hg Hf Hok2 E2 H. eapply r_brace; [exact Hrun2|exact Ee].
  - apply good_Subshell in Hp. destruct Hp as [Hp Hn]. cbv zeta in H. rewrite Hf in H.
    assert (K : (forall a b, c <> Pipe a b) -> finish fl match child d n c fl s with Some (rv, s1) => Some (Ret rv, x, s1) | None => None end = Some r ->
      exists o p', run d ign lv (in_function rest) (Subshell c) (abs s) o p' /\ ok lv rest o p' r).
    { intros Hnp H'. destruct (child d n c fl s) as [[rv s1]|] eqn:E; [|discriminate]. injection H' as <-.
      destruct (IHc _ _ _ _ _ _ Hg E Hp Hn He) as (Hfk & Hk1 & He1).
      destruct (tail_ok lv rest fl ign x false rv s1 Hg Hx He1 Hf) as (o & p' & Es & Hok); [congruence|]. exists o, p'. split; [|exact Hok].
      eapply r_subshell; [exact Hnp|exact Hfk|exact Es]. }
    destruct c; try (apply K; [congruence|exact H]). clear K.
    destruct (execute d n _ _ _ _) as [r1|] eqn:E2; [|discriminate].
    destruct (IHe _ _ _ _ _ _ lv rest Hg E2 Hp Hx He Hb Hk Hf) as (ob & p2 & Hrun2 & Hok2). after Hg Hf Hok2 E2 H. eapply r_subshell_pipe; [exact Hrun2|exact Ee].
  - destruct (pipes _ _ _ _ _) as [[l s1]|] eqn:E; [|discriminate]. injection H as <-.
    destruct (IHp _ _ _ _ _ _ Hg' E Hp eq_refl He) as (Hpi & Hk1 & He1).
    replace (if d_pipefail d (s_w s) then last_failure l 0 else last l 0) with (pipe_status (d_pipefail d (s_w s)) l)
      by (unfold pipe_status; rewrite last_failure_ok; reflexivity).
    destruct (tail_ok lv rest (sub_flags fl) ign x false (pipe_status (d_pipefail d (s_w s)) l) s1 Hg' Hx He1 eq_refl) as (o & p' & Es & Hok); [congruence|].
    exists o, p'. split; [|exact Hok]. eapply r_pipe; [exact Hpi|exact Es].
  - injection H as <-. destruct (tail_ok lv rest fl ign x false 0 (set_w s (d_async d c (s_w s))) Hg Hx He Hf Hk) as (o & p' & Es & Hok). exists o, p'. split; [apply r_async; exact Es|exact Hok].
Qed.

Lemma okx o p' u x (s : st) : ok 0 [] o p' (u, x, s) -> (forall rv, u = Ret rv -> s_q s = rv) -> exit_code o p' = s_q s mod 256 /\ p_w p' = s_w s.
Proof.
  intros (-> & _ & H) Hq. split; [|reflexivity]. unfold exit_code. destruct o; try reflexivity. destruct H as (-> & _). rewrite (Hq rv eq_refl). reflexivity.
Qed.
Lemma step_execx n : s_execute (Datatypes.S n) -> s_execx n -> s_execx (Datatypes.S n).
Proof.
  intros He IH c i ign x s u x' s' Hg H Hp Hn Hx Ho Hk.
  assert (K : forall u0, execute d (Datatypes.S n) c (Xf i false) x s = Some (u0, x', s') -> (forall rv, u = Ret rv -> u0 = Ret rv) ->
    exists o p', run d ign 0 false c (abs s) o p' /\ exit_code o p' = s_q s' mod 256 /\ (forall p, d_join d p (p_w p') = d_join d p (s_w s')) /\ (forall rv, u = Ret rv -> s_q s' = rv)).
  { intros u0 E Hu. destruct (He c (Xf i false) ign x s _ 0%nat [] Hg E Hp Hx Ho I Hk eq_refl) as (o & p' & Hrun & Hok).
    destruct (okx _ _ _ _ _ Hok) as [H1 H2]. { intros rv ->. eapply ret_q; [exact E|exact Hn]. }
    exists o, p'. split; [exact Hrun|]. split; [exact H1|]. split; [intros p; rewrite H2; reflexivity|].
    intros rv Hr. eapply ret_q; [|exact Hn]. rewrite E. rewrite (Hu rv Hr). reflexivity. }
  assert (K2 : no_sub c = true -> exists o p', run d ign 0 false c (abs s) o p' /\ exit_code o p' = s_q s' mod 256 /\ (forall p, d_join d p (p_w p') = d_join d p (s_w s')) /\ (forall rv, u = Ret rv -> s_q s' = rv)).
  { intros Hns. rewrite exec_x in H by exact Hns. destruct (execute d (Datatypes.S n) c (Xf i false) x s) as [[[u0 x0] s0]|]; [|discriminate].
    injection H as <- <- <-. apply (K u0); [reflexivity|]. intros rv. destruct u0; discriminate. }
  destruct c; try discriminate Hn; try (apply K2; reflexivity); clear K2.
  - clear K. apply good_Subshell in Hp. destruct Hp as [Hp Hn2].
    rewrite ex_Subshell in H. cbn [x_exec] in H. cbv zeta in H.
    destruct (execute d n c (Xf i true) x s) as [[[u1 x1] s1]|] eqn:E; [|discriminate].
    destruct (IH c i ign x s u1 x1 s1 Hg E Hp Hn2 Hx Ho Hk) as (o & p1 & Hrun & Hex & Hj & Hq).
    assert (Hs : s_q s' = s_q s1 /\ s_w s' = s_w s1 /\ (forall rv, u <> Ret rv)).
    { destruct u1 as [v|j]; cbn in H; injection H as <- <- <-; [|repeat split; congruence]. cbn. repeat split; [|congruence]. symmetry. apply Hq. reflexivity. }
    destruct Hs as (Hs1 & Hs2 & Hs3).
    assert (K : (forall a b, c <> Pipe a b) -> exists o p', run d ign 0 false (Subshell c) (abs s) o p' /\ exit_code o p' = s_q s' mod 256 /\ (forall p, d_join d p (p_w p') = d_join d p (s_w s')) /\ (forall rv, u = Ret rv -> s_q s' = rv)).
    { intros Hnp. destruct (settle ign false (exit_code o p1) (with_w (abs s) (d_join d (p_w (abs s)) (p_w p1)))) as [o2 p2] eqn:Es.
      exists o2, p2. split; [eapply r_subshell; [exact Hnp|constructor; exact Hrun|exact Es]|].
      unfold settle in Es. injection Es as <- <-. split; [|split; [|intros rv Hr; exfalso; eapply Hs3, Hr]].
      - rewrite Hs1, <- Hex. destruct (_ && _); cbn; unfold exit_code; apply Zmod_mod.
      - intros p. cbn. rewrite Join, Hs2. apply Hj. }
    destruct c; try (apply K; congruence). clear K.
    destruct (ends ign o p1) as [o2 p2] eqn:Ee. exists o2, p2. split; [eapply r_subshell_pipe; [exact Hrun|exact Ee]|].
    rewrite Hs1, Hs2, <- Hex. split; [|split; [|intros rv Hr; exfalso; eapply Hs3, Hr]].
    + destruct o; cbn [ends] in Ee; unfold settle in Ee; injection Ee as <- <-; try reflexivity. destruct (_ && _); reflexivity.
    + intros p. rewrite <- Hj. f_equal. destruct o; cbn [ends] in Ee; unfold settle in Ee; injection Ee as <- <-; reflexivity.
  - apply (K u); [exact H|auto].
Qed.

Lemma sound n : s_execute n /\ s_execx n /\ s_child n /\ s_pipes n /\ s_elist n /\ s_wloop n /\ s_floop n /\ s_sloop n.
Proof.
  induction n as [|n (IHe & IHx & IHc & IHp & IHl & IHw & IHf & IHs)]; [repeat split; intros; repeat intro; discriminate|].
  assert (He : s_execute (Datatypes.S n)) by (apply step_execute; assumption).
  assert (Isub : forall c fl ign x (s : st) r lv rest, igs fl ign -> execute d n c (sub_flags fl) x s = Some r -> good c = true -> flag x false -> off s -> base rest -> s_k s = loops lv ++ rest ->
    exists o p', run d ign lv (in_function rest) c (abs s) o p' /\ ok lv rest o p' r) by (intros c0 fl ign0 x0 s0 r0 lv0 rest0 H0 H1 H2 H3 H4 H5 H6; exact (IHe c0 (sub_flags fl) ign0 x0 s0 r0 lv0 rest0 H0 H1 H2 H3 H4 H5 H6 eq_refl)).
  assert (Iign : forall c x (s : st) r lv rest, execute d n c ignore x s = Some r -> good c = true -> flag x false -> off s -> base rest -> s_k s = loops lv ++ rest ->
    exists o p', run d true lv (in_function rest) c (abs s) o p' /\ ok lv rest o p' r) by (intros c0 x0 s0 r0 lv0 rest0 H1 H2 H3 H4 H5 H6; exact (IHe c0 ignore true x0 s0 r0 lv0 rest0 (fun _ => eq_refl) H1 H2 H3 H4 H5 H6 eq_refl)).
  split; [exact He|]. split; [apply step_execx; assumption|]. split; [|split; [|split; [|split; [|split]]]].
  - intros c fl ign s rv s' Hg H Hp Hn Ho. rewrite eq_child in H. destruct (execute d n c _ _ _) as [[[u x1] s1]|] eqn:E; [|discriminate].
    injection H as <- <-. destruct (IHx c (x_errok fl) ign _ _ _ _ _ Hg E Hp Hn (flag_refl _) Ho eq_refl) as (o & p' & Hrun & Hex & Hj & _). split; [|split; [reflexivity|exact Ho]].
    rewrite <- Hex. change (abs (set_w s (d_join d (s_w s) (s_w s1)))) with (with_w (abs s) (d_join d (p_w (abs s)) (s_w s1))). rewrite <- Hj. constructor. exact Hrun.
  - intros c fl ign s l s' Hg H Hp Hn Ho. rewrite eq_pipes in H.
    assert (K : (forall a b, c <> Pipe a b) -> match child d n c fl s with Some (rv, s1) => Some ([rv], s1) | None => None end = Some (l, s') ->
      piped d ign c (abs s) l (abs s') /\ s_k s' = s_k s /\ off s').
    { intros Hnp H'. destruct (child d n c fl s) as [[rv s1]|] eqn:E; [|discriminate]. injection H' as <- <-.
      destruct (IHc _ _ _ _ _ _ Hg E Hp Hn Ho) as (H1 & H2 & H3). split; [|auto]. constructor; assumption. }
    destruct c; try (apply K; [congruence|exact H]). clear K. apply good_Pipe in Hp. destruct Hp as (Hp1 & Hp2 & Hn1 & Hn2).
    destruct (child d n c1 fl s) as [[rv s1]|] eqn:E; [|discriminate]. destruct (pipes d n c2 fl s1) as [[l2 s2]|] eqn:E2; [|discriminate].
    injection H as <- <-. destruct (IHc _ _ _ _ _ _ Hg E Hp1 Hn1 Ho) as (H1 & H2 & H3).
    destruct (IHp _ _ _ _ _ _ Hg E2 Hp2 Hn2 H3) as (H4 & H5 & H6). split; [econstructor; eassumption|]. split; [congruence|exact H6].
  - intros c fl ign x s r lv rest Hg H Hp Hx Ho Hb Hk. rewrite eq_elist in H.
    assert (K : (forall a b, c <> Seq a b) -> execute d n c (sub_flags fl) x s = Some r ->
      exists ob p1, ok lv rest ob p1 r /\ run d ign lv (in_function rest) c (abs s) ob p1).
    { intros _ H'. destruct (Isub _ _ _ _ _ _ lv rest Hg H' Hp Hx Ho Hb Hk) as (o & p' & H1 & H2). eauto. }
    destruct c; try (apply K; [congruence|exact H]). clear K. apply good_Seq in Hp. destruct Hp as [Hp1 Hp2].
    destruct (execute d n c1 _ _ _) as [[[[v|j] x1] s1]|] eqn:E; [| |discriminate].
    + destruct (Isub _ _ _ _ _ _ lv rest Hg E Hp1 (flag_refl _) Ho Hb Hk) as (oa & p1 & Hrun & Hok). apply ret_done in Hok. destruct Hok as (ex & -> & _ & -> & Ho1 & Hk1).
      destruct (IHl _ _ _ _ _ _ lv rest Hg H Hp2 Hx Ho1 Hb Hk1) as (ob & p2 & Hok2 & Hrun2). exists ob, p2. split; [exact Hok2|]. intros o p' Ee.
      destruct c2; try (eapply r_seq; [exact Hrun|exact Hrun2|exact Ee]).
      eapply r_seq; [exact Hrun|exact (Hrun2 _ _ Ee)|exact (ends_idem _ _ _ _ _ Ee)].
    + injection H as <-. destruct (Isub _ _ _ _ _ _ lv rest Hg E Hp1 (flag_refl _) Ho Hb Hk) as (oa & p1 & Hrun & Hok). exists oa, p1. split; [eapply jump_flag; [exact Hx|exact Hok]|].
      intros o p' Ee. assert (Hi := jump_int _ _ _ _ _ _ _ Hok). destruct oa; [contradiction|..]; injection Ee as <- <-; apply r_seq_jump; assumption.
  - intros u a b fl ign x ex rv s r lv rest Hg H Hpa Hcb Hpb Hx Hxe Ho Hb Hk. rewrite eq_wloop in H.
    destruct (execute d n a _ _ _) as [[[[v|j] x1] s1]|] eqn:E; [| |discriminate].
    + destruct (Iign _ _ _ _ _ rest E Hpa (flag_refl _) Ho Hb Hk) as (oa & p1 & Hrun & Hok). apply ret_done in Hok. destruct Hok as (ex1 & -> & _ & -> & Ho1 & Hk1).
      destruct (Bool.eqb (v =? 0) (negb u)) eqn:Eu.
      * apply eqb_prop in Eu. destruct (execute d n b _ _ _) as [[[o2 x2] s2]|] eqn:E2; [|discriminate].
        assert (Hx2 : flag x2 false). { intros Em. rewrite <- (Hx Em). eapply (proj1 (kept (tame_m Em) n)); [| |exact E2]; [reflexivity|apply Hcb, Em]. }
        destruct (Isub _ _ _ _ _ _ _ rest Hg E2 Hpb Hx Ho1 Hb Hk1) as (ob & p2 & Hrun2 & Hok2).
        destruct o2 as [v2|j].
        -- apply ret_done in Hok2. destruct Hok2 as (ex2 & -> & Hf2 & -> & Ho2 & Hk2).
           destruct (IHw _ _ _ _ _ _ _ _ _ _ lv rest Hg H Hpa Hcb Hpb Hx2 Hf2 Ho2 Hb Hk2) as (o & p' & Hw & Hokl). exists o, p'. split; [|exact Hokl].
           eapply w_body; [exact Hrun|exact Eu|exact Hrun2|reflexivity|exact Hw].
        -- assert (Hc := caught_ok _ _ _ _ _ _ _ Hb Hok2). destruct (caught j x2 s2) as [[[u3 x3] s3]|].
           ++ injection H as <-. destruct Hc as (o & Hv & Hok3). exists o, p2. split; [|exact Hok3].
              eapply w_body_out; [exact Hrun|exact Eu|exact Hrun2|exact Hv].
           ++ destruct Hc as (Hv & Hk2 & _ & -> & Ho2). destruct (IHw _ _ _ _ _ _ _ _ _ _ lv rest Hg H Hpa Hcb Hpb Hx2 Hx2 Ho2 Hb Hk2) as (o & p' & Hw & Hokl). exists o, p'. split; [|exact Hokl].
              eapply w_body; [exact Hrun|exact Eu|exact Hrun2|exact Hv|exact Hw].
      * injection H as <-. exists (Done rv ex), (abs s1). split.
        -- eapply w_stop; [exact Hrun|]. destruct (v =? 0), u; auto; discriminate.
        -- cbn. repeat split; auto. rewrite Hk1. reflexivity.
    + destruct (Iign _ _ _ _ _ rest E Hpa (flag_refl _) Ho Hb Hk) as (oa & p1 & Hrun & Hok). assert (Hi := jump_int _ _ _ _ _ _ _ Hok).
      apply (jump_flag _ _ _ _ _ _ x _ Hx) in Hok. assert (Hc := caught_ok _ _ _ _ _ _ _ Hb Hok). destruct (caught j x s1) as [[[u3 x3] s3]|].
      * injection H as <-. destruct Hc as (o & Hv & Hok3). exists o, p1. split; [|exact Hok3]. eapply w_cond_out; [exact Hrun|exact Hi|exact Hv].
      * destruct Hc as (Hv & Hk2 & _ & -> & Ho2). destruct (IHw _ _ _ _ _ _ _ _ _ _ lv rest Hg H Hpa Hcb Hpb Hx Hx Ho2 Hb Hk2) as (o & p' & Hw & Hokl). exists o, p'. split; [|exact Hokl].
        eapply w_cond_again; [exact Hrun|exact Hi|exact Hv|exact Hw].
  - intros ws b fl ign save x ex rv s r lv rest Hg H Hpb Hsv Hx Ho Hb Hk. rewrite eq_floop in H. destruct ws as [|k ws].
    { injection H as <-. eexists _, _. split; [constructor|]. cbn. rewrite Hk. repeat split; auto. }
    destruct (d_set d k (s_w s)) as [w|] eqn:Ed.
    + destruct (execute d n b _ _ _) as [[[o2 x2] s2]|] eqn:E2; [|discriminate].
      destruct (Isub _ _ _ _ _ _ _ rest Hg E2 Hpb Hsv Ho Hb Hk) as (ob & p2 & Hrun2 & Hok2). destruct o2 as [v2|j].
      * apply ret_done in Hok2. destruct Hok2 as (ex2 & -> & Hf2 & -> & Ho2 & Hk2). destruct (IHf _ _ _ _ _ _ _ _ _ _ lv rest Hg H Hpb Hsv Hf2 Ho2 Hb Hk2) as (o & p' & Hw & Hokl). exists o, p'. split; [|exact Hokl].
        eapply fo_body; [exact Ed|exact Hrun2|reflexivity|exact Hw].
      * assert (Hc := caught_ok _ _ _ _ _ _ _ Hb Hok2). destruct (caught j x2 s2) as [[[u3 x3] s3]|].
        -- injection H as <-. destruct Hc as (o & Hv & Hok3). exists o, p2. split; [|exact Hok3]. eapply fo_out; [exact Ed|exact Hrun2|exact Hv].
        -- destruct Hc as (Hv & Hk2 & Hx2 & -> & Ho2). destruct (IHf _ _ _ _ _ _ _ _ _ _ lv rest Hg H Hpb Hx2 Hx2 Ho2 Hb Hk2) as (o & p' & Hw & Hokl). exists o, p'. split; [|exact Hokl].
           eapply fo_body; [exact Ed|exact Hrun2|exact Hv|exact Hw].
    + injection H as <-.
      destruct (error_ok lv rest (pop s) x Ho) as (o & p' & Ef & Hok); [cbn; rewrite Hk; reflexivity|].
      exists o, p'. split; [eapply fo_err; [exact Ed|exact Ef]|]. exact Hok.
  - intros k b fl ign x s r lv rest Hg H Hcb Hpb Hx Ho Hb Hk. rewrite eq_sloop in H. destruct (d_select d k (s_w s)) as [w [v|]] eqn:Es.
    + destruct (d_set d v w) as [w'|] eqn:Ed.
      * destruct (execute d n b _ _ _) as [[[o2 x2] s2]|] eqn:E2; [|discriminate].
        assert (Hx2 : flag x2 false). { intros Em. rewrite <- (Hx Em). eapply (proj1 (kept (tame_m Em) n)); [| |exact E2]; [reflexivity|apply Hcb, Em]. }
        destruct (Isub _ _ _ _ _ _ _ rest Hg E2 Hpb Hx Ho Hb Hk) as (ob & p2 & Hrun2 & Hok2). destruct o2 as [v2|j].
        -- apply ret_done in Hok2. destruct Hok2 as (ex2 & -> & Hf2 & -> & Ho2 & Hk2). destruct (IHs _ _ _ _ _ _ _ lv rest Hg H Hcb Hpb Hx2 Ho2 Hb Hk2) as (o & p' & Hw & Hokl). exists o, p'. split; [|exact Hokl].
           eapply se_body; [exact Es|exact Ed|exact Hrun2|reflexivity|exact Hw].
        -- assert (Hc := caught_ok _ _ _ _ _ _ _ Hb Hok2). destruct (caught j x2 s2) as [[[u3 x3] s3]|].
           ++ injection H as <-. destruct Hc as (o & Hv & Hok3). exists o, p2. split; [|exact Hok3]. eapply se_out; [exact Es|exact Ed|exact Hrun2|exact Hv].
           ++ destruct Hc as (Hv & Hk2 & _ & -> & Ho2). destruct (IHs _ _ _ _ _ _ _ lv rest Hg H Hcb Hpb Hx2 Ho2 Hb Hk2) as (o & p' & Hw & Hokl). exists o, p'. split; [|exact Hokl].
              eapply se_body; [exact Es|exact Ed|exact Hrun2|exact Hv|exact Hw].
      * injection H as <-. destruct (error_ok lv rest (pop (set_w s w)) x Ho) as (o & p' & Ef & Hok); [cbn; rewrite Hk; reflexivity|].
        exists o, p'. split; [eapply se_err; [exact Es|exact Ed|exact Ef]|]. exact Hok.
    + injection H as <-. eexists _, _. split; [eapply se_end; exact Es|]. cbn. rewrite Hk. repeat split; auto.
Qed.
End P.
