(** C74: the prompt. *)
From Verif Require Import Base Prompt_model Prompt_spec Prompt_proof.
Local Open Scope nat_scope.

(** What is printed are the meanings of the pieces, one after the other; a delimiter at the front changes nothing but the width. *)
Theorem c74_printed : forall e s l ts, reads (psh e) l s -> Forall2 (means e) l ts ->
  ((forall c r, s <> c :: "013"%char :: r) -> pprompt e s 0 = Some (concat ts)) /\
  (forall d, d <> "\"%char -> d <> "!"%char -> pprompt e (d :: "013"%char :: s) 0 = Some (concat ts)).
Proof.
  intros e s l ts R M. destruct (parse_ok e l s R ts M) as [L0 [P [<- <-]]]. unfold pprompt. split.
  - intros N. rewrite (dopprompt_plain _ e L0 s 0 P N). cbn [option_map]. f_equal. rewrite (acts_out _ e L0 s None P) by reflexivity. reflexivity.
  - intros d D1 D2. rewrite (dopprompt_delim _ e L0 d s 0 P) by (split; congruence). cbn [option_map]. f_equal.
    rewrite (acts_out _ e L0 s (Some d) P) by reflexivity. reflexivity.
Qed.
Print Assumptions c74_printed.
Definition env1 : penv := PEnv false (fun f => L "<" ++ f ++ L ">") (L "box.example") (L "2") (Some (L "/dev/tty1")) (L "ksh") false (L "me")
  (L "@(#)PD KSH v5 99") (L "/home/me/src") (L "/home/me") (fun p => rev (until "/" (rev p))) (L "17") (L "4").
Definition env_sh : penv := PEnv true (date env1) (host env1) (njobs env1) None (kname env1) true (user env1) (version env1) (pwd env1) (home env1) (base env1) (hist_no env1) (cmd_no env1).
Example c74_printed_example :
  pprompt env1 (L "\u@\h:\w !!! \101\D{%H}\j\q\\\p ") 0 = Some (L "me@box:~/src !17 A<%H>2\q\$ ") /\
  pprompt env_sh (L "\u@\h! \101\p ") 0 = Some (L "\u@box17 \101# ") /\
  reads false [Esc "u"; Bang; Num; Oct "1" "0" "1"; Date (L "%H"); Esc "1"; Ch "8"]%char (L "\u!!!\101\D{%H}\18").
Proof.
  split; [vm_compute; reflexivity|]. split; [vm_compute; reflexivity|].
  change (L "\u!!!\101\D{%H}\18") with ("\"%char :: "u"%char :: L "!!" ++ "!"%char :: ["\"; "1"; "0"; "1"]%char ++ L "\D{" ++ L "%H" ++ L "}" ++ "\"%char :: "1"%char :: "8"%char :: []).
  apply rd_esc; [intros _ [a [b [r [O _]]]]; cbn in O; intuition discriminate|discriminate|].
  apply rd_bang, rd_num; [discriminate|]. apply rd_oct; [reflexivity|cbn; tauto|cbn; tauto|cbn; tauto|].
  apply rd_date; [reflexivity|cbn; intuition discriminate|]. apply rd_esc; [intros _ [a [b [r [_ [O [_ E]]]]]]; discriminate E|discriminate|].
  apply rd_ch; [discriminate|discriminate|constructor].
Qed.

(** Every prompt can be read so, and with the terminal known nothing but its text is looked at, unless it ends in \D. *)
Theorem c74_safe : forall e s, known e -> (psh e = false -> forall u, s <> u ++ L "\D") -> (forall c r, s <> c :: "013"%char :: r) ->
  exists l ts, reads (psh e) l s /\ Forall2 (means e) l ts /\ pprompt e s 0 = Some (concat ts).
Proof.
  intros e s K N D. destruct (reads_total (psh e) (length s) s) as [[l R]|[SH [u E]]]; [lia| |exfalso; now apply (N SH u)].
  destruct (means_all e l K) as [ts M]. exists l, ts. split; [exact R|]. split; [exact M|]. now apply (c74_printed e s l ts R M).
Qed.
Print Assumptions c74_safe.
Example c74_safe_example : known env1 /\ forall u, L "\w \D{" <> u ++ L "\D".
Proof.
  split.
  - split; [discriminate|]. exists (L "@(#)PD"), (L "KSH"), (L "v5 99"). split; [reflexivity|]. split; cbn; intuition discriminate.
  - intros u E. apply (f_equal (@rev char)) in E. rewrite rev_app_distr in E. discriminate E.
Qed.
(** With \D at the end the search for } starts behind the end of the prompt; without a terminal \l prints what was in the buffer. *)
Theorem c74_date_refuted : pprompt env1 (L "$ \D") 0 = None.
Proof. reflexivity. Qed.
Print Assumptions c74_date_refuted.
Theorem c74_tty_refuted : forall e, psh e = false -> tty e = None -> pprompt e (L "\l") 0 = None.
Proof. intros e H T. unfold pprompt, dopprompt. change (L "\l") with ["\"%char; "l"%char]. cbn. unfold expand. rewrite H, T. reflexivity. Qed.
Print Assumptions c74_tty_refuted.

(** The width of a prompt on one line is the number of bytes outside of \[ \] and of the delimiters. *)
Theorem c74_width : forall e s l ts, reads (psh e) l s -> Forall2 (means e) l ts -> Forall (fun p => p <> Ch TAB /\ ~ new_line (psh e) p) l ->
  ((forall c r, s <> c :: "013"%char :: r) -> exists r, promptlen e s = Some (visible (psh e) None true false (combine l ts), r)) /\
  (forall d, d <> "\"%char -> d <> "!"%char -> exists r, promptlen e (d :: "013"%char :: s) = Some (visible (psh e) (Some d) true false (combine l ts), r)).
Proof.
  intros e s l ts R M F. destruct (parse_ok e l s R ts M) as [L0 [P [E1 E2]]].
  assert (EP : combine l ts = pairs L0).
  { rewrite <- E1, <- E2. clear. induction L0 as [|[[p t] r] L0 IH]; [reflexivity|]. cbn. now rewrite IH. }
  assert (F0 : Forall (fun x => ordinary (psh e) (fst (fst x))) L0).
  { rewrite <- E1 in F. apply Forall_map in F. exact F. }
  rewrite EP. unfold promptlen. split.
  - intros N. rewrite (dopprompt_plain _ e L0 s 0 P N). eexists. cbn [option_map]. now rewrite (acts_tot _ e L0 s None P F0) by reflexivity.
  - intros d D1 D2. rewrite (dopprompt_delim _ e L0 d s 0 P) by (split; congruence). eexists. cbn [option_map]. now rewrite (acts_tot _ e L0 s (Some d) P F0) by reflexivity.
Qed.
Print Assumptions c74_width.
Example c74_width_example :
  promptlen env1 (L "\[\e[1m\]\u\[\e[0m\]$ ") = Some (4, L "\[\e[1m\]\u\[\e[0m\]$ ") /\
  promptlen env1 ("001"%char :: "013"%char :: "001"%char :: L "\e[1m" ++ "001"%char :: L "\h> ") = Some (5, "001"%char :: "013"%char :: "001"%char :: L "\e[1m" ++ "001"%char :: L "\h> ").
Proof. split; vm_compute; reflexivity. Qed.

(** With new lines it is what comes after the last one, and one more: the newline itself is counted. *)
Theorem c74_width_lines : forall e s l1 p l2 ts1 t ts2, reads (psh e) (l1 ++ p :: l2) s -> Forall2 (means e) (l1 ++ p :: l2) (ts1 ++ t :: ts2) -> length l1 = length ts1 ->
  new_line (psh e) p -> Forall (fun p => p <> Ch TAB /\ ~ new_line (psh e) p) l2 -> (forall c r, s <> c :: "013"%char :: r) ->
  let c := counted (psh e) true l1 in exists r, promptlen e s = Some ((if c then 1 else 0) + visible (psh e) None c false (combine l2 ts2), r).
Proof.
  intros e s l1 p l2 ts1 t ts2 R M Ln NL F N c. destruct (parse_ok e _ s R _ M) as [L0 [P [E1 E2]]].
  apply map_eq_app in E1. destruct E1 as [La [Lb [-> [Ea Eb]]]]. destruct Lb as [|[[p' t'] s'] Lb]; [discriminate|]. cbn [map fst] in Eb. injection Eb as -> Eb.
  rewrite map_app in E2. cbn [map fst snd] in E2.
  assert (Q : length (map (fun x : piece * cstr * cstr => snd (fst x)) La) = length ts1) by (rewrite map_length, <- Ln, <- Ea, map_length; reflexivity).
  assert (SPL : forall (A : Type) (a b c d : list A), length a = length c -> a ++ b = c ++ d -> a = c /\ b = d).
  { intros A a. induction a as [|x a IH]; intros b [|y c'] d' Q' X; try discriminate; [now split|]. cbn in X. injection X as -> X. injection Q' as Q'. destruct (IH _ _ _ Q' X). now subst. }
  destruct (SPL _ _ _ _ _ Q E2) as [Q1 Q2]. injection Q2 as -> Q2.
  assert (EP : combine l2 ts2 = pairs Lb).
  { rewrite <- Eb, <- Q2. clear. induction Lb as [|[[p t] r] Lb IH]; [reflexivity|]. cbn. now rewrite IH. }
  assert (F0 : Forall (fun x => ordinary (psh e) (fst (fst x))) Lb) by (rewrite <- Eb in F; apply Forall_map in F; exact F).
  unfold promptlen. rewrite (dopprompt_plain _ e _ s 0 P N). eexists. cbn [option_map].
  destruct (acts_lines (psh e) e l1 _ s P La p t s' Lb eq_refl Ea NL F0 (PSt 0 false true 0 [] s) eq_refl eq_refl) as [A _]. rewrite A, EP. reflexivity.
Qed.
Print Assumptions c74_width_lines.
(** So the editors believe the prompt wider than it is, also after a tab. *)
Theorem c74_newline_refuted : option_map fst (promptlen env1 (L "\w\n$ ")) = Some 3 /\ option_map fst (promptlen env1 (L "x" ++ [NL] ++ L "$ ")) = Some 3 /\
  option_map fst (promptlen env1 ([TAB] ++ L "$")) = Some 10.
Proof. repeat split; vm_compute; reflexivity. Qed.
Print Assumptions c74_newline_refuted.

(** When the line is drawn again only the last line of the prompt is printed: the text of which the printing ends that of the whole. *)
Theorem c74_again : forall e s l ts w s', reads (psh e) l s -> Forall2 (means e) l ts -> (forall c r, s <> c :: "013"%char :: r) ->
  promptlen e s = Some (w, s') -> (forall c r, s' <> c :: "013"%char :: r) ->
  exists pre o1 o2, s = pre ++ s' /\ pprompt e s 0 = Some (o1 ++ o2) /\ pprompt e s' 0 = Some o2 /\ (o1 = [] \/ exists u c, o1 = u ++ [c] /\ (c = NL \/ c = "013"%char)).
Proof.
  intros e s l ts w s' R M N PL N'. destruct (parse_ok e l s R ts M) as [L0 [P [E1 E2]]]. unfold promptlen in PL. unfold pprompt.
  rewrite (dopprompt_plain _ e L0 s 0 P N) in *. cbn [option_map] in *. injection PL as Ew Es.
  rewrite (acts_out _ e L0 s None P) by reflexivity. cbn [out app].
  destruct (acts_sp _ e L0 s P (PSt 0 false true 0 [] s) eq_refl eq_refl) as [X|[La [p [t [Lb [X [NL [M' P']]]]]]]].
  - rewrite X in Es. cbn in Es. subst s'. exists [], [], (texts L0). split; [reflexivity|]. split; [reflexivity|]. split; [|now left].
    rewrite (dopprompt_plain _ e L0 s 0 P N). cbn [option_map]. f_equal. now rewrite (acts_out _ e L0 s None P) by reflexivity.
  - rewrite Es in X, P'. assert (SUF : exists pre, s = pre ++ s').
    { clear - P X. revert La X. induction P as [| |p0 t0 s1 s0 l0 P IH R [pre [E Lp]] M G]; intros La X; try (destruct La; discriminate).
      destruct La as [|x La]; cbn [app] in X.
      - injection X as _ _ -> _. now exists pre.
      - injection X as _ X. destruct (IH La X) as [pre' ->]. exists (pre ++ pre'). now rewrite <- app_assoc. }
    destruct SUF as [pre ->]. exists pre, (texts La ++ t), (texts Lb). split; [reflexivity|]. split.
    + f_equal. rewrite X at 1. rewrite texts_app. unfold texts at 2. cbn [map concat fst snd]. fold (texts Lb). now rewrite app_assoc.
    + split; [|right; exists (texts La); destruct (new_line_text e p t NL M') as [-> | ->]; eauto].
      rewrite (dopprompt_plain _ e Lb s' 0 P' N'). cbn [option_map]. f_equal. now rewrite (acts_out _ e Lb s' None P') by reflexivity.
Qed.
Print Assumptions c74_again.
Example c74_again_example : promptlen env1 (L "\w\n\u$ ") = Some (5, L "\u$ ") /\ pprompt env1 (L "\w\n\u$ ") 0 = Some (L "~/src" ++ [NL] ++ L "me$ ") /\ pprompt env1 (L "\u$ ") 0 = Some (L "me$ ").
Proof. repeat split; vm_compute; reflexivity. Qed.

(** A prompt too wide for the screen loses its first bytes, and nothing else, if it has no \[. *)
Theorem c74_cut : forall e s l ts n, reads (psh e) l s -> Forall2 (means e) l ts -> (psh e = false -> ~ In (Esc "[") l) ->
  ((forall c r, s <> c :: "013"%char :: r) -> pprompt e s n = Some (skipn n (concat ts))) /\
  (forall d, d <> "\"%char -> d <> "!"%char -> pprompt e (d :: "013"%char :: s) n = Some (skipn n (concat ts))).
Proof.
  intros e s l ts n R M N. destruct (parse_ok e l s R ts M) as [L0 [P [<- <-]]]. unfold pprompt. split.
  - intros D. rewrite (dopprompt_plain _ e L0 s n P D). cbn [option_map]. f_equal. rewrite (acts_cut _ e L0 s None P N) by reflexivity. reflexivity.
  - intros d D1 D2. rewrite (dopprompt_delim _ e L0 d s n P) by (split; congruence). cbn [option_map]. f_equal.
    rewrite (acts_cut _ e L0 s (Some d) P N) by reflexivity. reflexivity.
Qed.
Print Assumptions c74_cut.
Example c74_cut_example : pprompt env1 (L "\u@\h:\w ") 4 = Some (L "ox:~/src ").
Proof. vm_compute. reflexivity. Qed.
(** With \[ the escape character may be lost and the rest of the sequence printed. *)
Theorem c74_cut_refuted : pprompt env1 (L "\[\e[1m\]me$ ") 2 = Some (L "[1me$ ").
Proof. vm_compute. reflexivity. Qed.
Print Assumptions c74_cut_refuted.

(** \$ is the sign of the user, # for root; what else there is in the prompt is as it was. *)
Theorem c74_dollar : forall s, (forall u v, s <> u ++ L "\$" ++ v) -> dollars s = s /\ forall r, (forall u, s <> u ++ L "\") -> dollars (s ++ L "\$" ++ r) = s ++ L "\p" ++ dollars r.
Proof.
  induction s as [|c s IH]; intros N.
  - split; [reflexivity|]. intros r _. reflexivity.
  - destruct IH as [A B]; [intros u v E; apply (N (c :: u) v); cbn; now rewrite E|].
    destruct s as [|d s].
    + split; [reflexivity|]. intros r NB. cbn [app]. change (L "\$" ++ r) with ("\"%char :: "$"%char :: r).
      change (dollars (c :: "\"%char :: "$"%char :: r)) with (if ceq c "\" && ceq "\" "$" then c :: "p"%char :: dollars ("$"%char :: r) else c :: "\"%char :: "p"%char :: dollars r).
      change (ceq "\" "$") with false. rewrite Bool.andb_false_r. reflexivity.
    + assert (X : ceq c "\" && ceq d "$" = false).
      { destruct (ceq_spec c "\") as [->|]; [|reflexivity]. destruct (ceq_spec d "$") as [->|]; [|reflexivity]. exfalso. now apply (N [] s). }
      split.
      * change (dollars (c :: d :: s)) with (if ceq c "\" && ceq d "$" then c :: "p"%char :: dollars s else c :: dollars (d :: s)). now rewrite X, A.
      * intros r NB. cbn [app]. change (dollars (c :: d :: s ++ L "\$" ++ r)) with (if ceq c "\" && ceq d "$" then c :: "p"%char :: dollars (s ++ L "\$" ++ r) else c :: dollars ((d :: s) ++ L "\$" ++ r)).
        rewrite X, B; [reflexivity|]. intros u E. apply (NB (c :: u)). cbn. now rewrite E.
Qed.
Print Assumptions c74_dollar.
Example c74_dollar_example : pprompt env1 (dollars (L "a\$b\$")) 0 = Some (L "a$b$") /\ pprompt env_sh (dollars (L "\$ ")) 0 = Some (L "# ").
Proof. split; vm_compute; reflexivity. Qed.
(** It is replaced before backslashes are read in pairs: two quoted backslashes and a dollar, of which the substitution leaves one of
    each two backslashes, are printed as a backslash and a p. *)
Theorem c74_dollar_refuted : dollars (L "\\\\$ ") = L "\\\\p " /\ pprompt env1 (L "\\p ") 0 = Some (L "\p ").
Proof. split; vm_compute; reflexivity. Qed.
Print Assumptions c74_dollar_refuted.
