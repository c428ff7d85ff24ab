(** The kernel that knows the directories says what is true. *)
From Verif Require Import Base Num_model SimplifyPath_model SimplifyPath_spec SimplifyPath_proof SimplifyPath_props Cd_model Cd_spec Cd_proof Cd_step.

Section I.
Variable f : fs.
Lemma resolve_cons n d x l : resolve f n d (x :: l) =
  if str_eqb x [] || str_eqb x (L ".") then resolve f n d l
  else if str_eqb x (L "..") then resolve f n (up f d) l
  else match entry f d x with
       | Some (NDir e) => resolve f n e l
       | Some (NLink []) => None
       | Some (NLink t) => match n with
                           | O => None
                           | S m => match resolve f m (start f d t) (components t) with Some e => resolve f n e l | None => None end
                           end
       | _ => None
       end.
Proof. destruct n; reflexivity. Qed.
Lemma resolve_nil n d : resolve f n d [] = Some d. Proof. destruct n; reflexivity. Qed.
Lemma resolve_reach n : forall l d i, Forall noslash l -> resolve f n d l = Some i -> reach f d l i.
Proof.
  induction n as [n IHn] using lt_wf_ind. induction l as [|x l IH]; intros d i N H; [rewrite resolve_nil in H; injection H as <-; constructor|].
  inversion N as [|? ? N1 N2]; subst. rewrite resolve_cons in H.
  destruct (str_eqb_spec x []) as [E1|E1]; [cbn in H; apply r_stay; auto|]. destruct (str_eqb_spec x (L ".")) as [E2|E2]; [cbn in H; apply r_stay; auto|]. cbn [orb] in H.
  destruct (str_eqb_spec x (L "..")) as [->|E3]; [apply (r_up f); auto|].
  assert (P : plain x) by (repeat split; auto).
  destruct (entry f d x) as [[e|t|]|] eqn:E; try discriminate; [eapply r_down; eauto|]. destruct t as [|c t]; [discriminate|]. destruct n as [|n]; [discriminate|].
  destruct (resolve f n _ _) as [e|] eqn:ER; [|discriminate].
  eapply r_link; eauto; [discriminate|]. eapply (IHn n); eauto. apply components_noslash.
Qed.
Lemma lookup_names n d p i : lookup f n d p = Some i -> names_from f d p i.
Proof.
  unfold lookup. destruct (str_eqb_spec p []) as [E|E]; [discriminate|]. intros H. split; [exact E|]. eapply resolve_reach; [apply components_noslash|exact H].
Qed.
Lemma walk_app l1 l2 d : walk f d (l1 ++ l2) = match walk f d l1 with Some e => walk f e l2 | None => None end.
Proof. revert d. induction l1 as [|x l1 IH]; intros d; [reflexivity|]. cbn. destruct (entry f d x) as [[]|]; auto. Qed.
Lemma real_walk l d : real f l d -> walk f (root f) l = Some d.
Proof. induction 1 as [|l d x i H IH A B]; [reflexivity|]. rewrite walk_app, IH. cbn. rewrite B. reflexivity. Qed.
Lemma readlink_eq l d x : real f l d -> plain x ->
  readlink_in f ("/"%char :: join (l ++ [x])) = match entry f d x with
              | Some (NLink t) => if negb (str_eqb t []) && nul_free t then RLink t else RErr
              | Some _ => RInval
              | None => RErr
              end.
Proof.
  intros R P. unfold readlink_in. cbn [components]. change (ceq "/" "/") with true. cbv iota. cbn [tl].
  rewrite components_join; [|destruct l; discriminate|].
  - rewrite removelast_app by discriminate. cbn [removelast]. rewrite app_nil_r, last_last, (real_walk l d R). reflexivity.
  - apply Forall_app. split; [|constructor; [apply P|constructor]]. eapply Forall_impl; [|apply (real_plain f l d R)]. intros a Ha. apply Ha.
Qed.
Lemma kernel_honest g : (forall d p, g d = Some p -> is_physical f p d /\ nul_free p = true) -> honest_kernel f (kernel_of f g).
Proof.
  intros HG. constructor; cbn [kernel_of k_chdir k_stat k_getcwd k_readlink].
  - intros d p i. apply lookup_names.
  - intros d p i. apply lookup_names.
  - exact HG.
  - intros l d x t R P H. rewrite (readlink_eq l d x R P) in H. destruct (entry f d x) as [[|t'|]|]; try discriminate.
    destruct (str_eqb_spec t' []) as [E0|NE]; [discriminate|]. cbn in H. destruct (nul_free t') eqn:EN; [|discriminate]. injection H as <-. auto.
  - intros l d x R P H. rewrite (readlink_eq l d x R P) in H. destruct (entry f d x) as [[|t'|]|]; try discriminate; eauto; [eexists; split; [reflexivity|discriminate]|..].
    + destruct (_ && _); discriminate.
    + eexists; split; [reflexivity|discriminate].
Qed.
End I.
