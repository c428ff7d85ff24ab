(** C79: the options of time. *)
From Verif Require Import Base Num_model SimplifyPath_model Opt_model Opt_spec Opt_proof Opt_props Timehook_model Timehook_proof.
From Coq Require Import Lia.
Local Open Scope nat_scope.

(** the words a vector holds: those before the first NULL *)
Inductive holds : list (option cstr) -> list cstr -> Prop :=
| H_end r : holds (None :: r) []
| H_word w r ws : holds r ws -> holds (Some w :: r) (w :: ws).
Lemma holds_prefix ws : forall cells, firstn (S (length ws)) cells = map Some ws ++ [None] -> holds cells ws.
Proof.
  induction ws as [|w ws IH]; intros [|x r] E; cbn [length map app] in E; try discriminate.
  - inversion E; subst. constructor.
  - change (firstn (S (S (length ws))) (x :: r)) with (x :: firstn (S (length ws)) r) in E. inversion E; subst. constructor. now apply IH.
Qed.

(** The words after time are read as options with the one option p; the first unknown
    option ends the command with a message about it.  Otherwise the words that follow
    are what is left, the others are freed, each once, -p is known iff it was given and
    NOARGS is set iff no words are left.  Nothing outside the vector is read or
    written, whatever the words. *)
Theorem c79_hook : forall wp, cstrings wp -> exists evs rest mm o,
  timex_hook (enough wp) wp = Ok (Some o) /\ scan (L ":p") false None wp evs rest mm /\
  match o with
  | HErr text => exists pre b c post, evs = pre ++ Unknown b c :: post /\ Forall is_p pre /\ text = L "time: -" ++ [c] ++ L " unknown option"
  | HOk posix noargs cells freed => Forall is_p evs /\ (posix = true <-> evs <> []) /\ (noargs = true <-> rest = []) /\ holds cells rest /\ freed ++ rest = wp
  end.
Proof.
  intros wp CS.
  assert (exists o evs rest mm, hook_opts (enough wp) wp (with_ind (getopt_reset 0 false) 0) false = Ok (Some o) /\ scan (L ":p") false None wp evs rest mm /\ outcome wp false evs rest o)
    as (o & evs & rest & mm & E & S & O).
  { unfold enough. destruct (first_call wp CS) as [(g' & rest & mm & E & S & I & K)|(z & g' & E & S)].
    - cbn [hook_opts]. rewrite E. cbn [bind]. change (-1 =? -1)%Z with true. cbv iota. eexists _, [], rest, mm.
      split; [reflexivity|]. split; auto. cbn. auto.
    - eapply hook_step; eauto. intros cur' args' A' SZ' P'. apply hook_opts_ok; auto. }
  exists evs, rest, mm. unfold timex_hook. rewrite E. cbn [bind]. destruct o as [t|p g].
  { eexists. split; [reflexivity|]. split; auto. }
  destruct O as (F & -> & I & K).
  assert (forall cells freed, holds cells rest -> freed ++ rest = wp -> exists o,
    match cells with [] => UB | x :: _ => Ok (Some (HOk (false || negb match evs with [] => true | _ => false end) (match x with None => true | Some _ => false end) cells freed)) end = Ok (Some o) /\
    scan (L ":p") false None wp evs rest mm /\
    match o with
    | HErr text => exists pre b c post, evs = pre ++ Unknown b c :: post /\ Forall is_p pre /\ text = L "time: -" ++ [c] ++ L " unknown option"
    | HOk posix noargs cells freed => Forall is_p evs /\ (posix = true <-> evs <> []) /\ (noargs = true <-> rest = []) /\ holds cells rest /\ freed ++ rest = wp
    end) as FIN.
  { intros cells freed H W. destruct cells as [|x cells]; [inversion H|]. eexists. split; [reflexivity|]. split; auto. split; auto. split.
    - destruct evs; cbn; split; intros; congruence.
    - split; [inversion H; subst; cbn; split; intros; congruence|]. auto. }
  destruct (optind g =? 0) eqn:Z.
  - apply Nat.eqb_eq in Z. rewrite Z in K. cbn in K. subst rest. apply FIN; auto.
    apply holds_prefix. rewrite firstn_all2 by (rewrite app_length, map_length; cbn; lia). reflexivity.
  - apply Nat.eqb_neq in Z. rewrite free_words_ok by auto. cbn [bind].
    destruct (copy_down_ok rest (Datatypes.S (length wp)) (map Some wp ++ [None]) 0 (optind g)) as (cells' & E' & _ & F').
    + lia.
    + rewrite skipn_app, map_length. replace (optind g - length wp) with 0 by lia. cbn [skipn]. rewrite skipn_map, K. reflexivity.
    + rewrite <- K, skipn_length. lia.
    + rewrite E'. cbn [bind]. apply FIN.
      * apply holds_prefix. exact F'.
      * rewrite <- K. apply firstn_skipn.
Qed.
Print Assumptions c79_hook.
Example c79_hook_ex : timex_hook 40 [L "-p"; L "--"; L "ls"; L "-l"] =
    Ok (Some (HOk true false [Some (L "ls"); Some (L "-l"); None; Some (L "-l"); None] [L "-p"; L "--"])) /\
  timex_hook 40 [L "ls"; L "-p"] = Ok (Some (HOk false false [Some (L "ls"); Some (L "-p"); None] [])) /\
  timex_hook 40 [L "-pp"] = Ok (Some (HOk true true [None; None] [L "-pp"])) /\
  timex_hook 40 [L "-px"; L "ls"] = Ok (Some (HErr (L "time: -x unknown option"))).
Proof. vm_compute. auto. Qed.
