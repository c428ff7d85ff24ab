From Verif Require Import Base Num_model SimplifyPath_model XString_model XString_spec XString_props Opt_model Opt_spec Opt_proof Print_model Print_spec.
Local Open Scope nat_scope.

(** ** Escapes *)
Lemma tochar_code z : ccode (tochar z) = (z mod 256)%Z.
Proof.
  unfold tochar, ccode. rewrite N_ascii_embedding; [apply Z2N.id; apply Z.mod_pos_bound; lia|].
  pose proof (Z.mod_pos_bound z 256). lia.
Qed.
Lemma isoct_octal c : isoct c = true <-> octal c.
Proof.
  unfold octal. rewrite <- mem_In. split; intros H.
  - assert (K : forallb (fun c => implb (isoct c) (mem c (L "01234567"))) all_chars = true) by (vm_compute; reflexivity).
    apply char_sweep with (c := c) in K. rewrite H in K. exact K.
  - assert (K : forallb (fun c => implb (mem c (L "01234567")) (isoct c)) all_chars = true) by (vm_compute; reflexivity).
    apply char_sweep with (c := c) in K. rewrite H in K. exact K.
Qed.

Lemma text_of_app a b t : text_of (a ++ b) t = text_of b (text_of a t).
Proof. revert t. induction a as [|[n|c|n] a IH]; intros t; cbn; auto. Qed.
(** the room that is left *)
Fixpoint room_after (room : nat) (os : list xop) : option nat :=
  match os with
  | [] => Some room
  | XCheck n :: os => room_after (Nat.max room (n + 8)) os
  | XPut _ :: os => match room with O => None | S r => room_after r os end
  | XBack _ :: os => room_after room os
  end.
Lemma room_app a b r : room_after r (a ++ b) = match room_after r a with Some r' => room_after r' b | None => None end.
Proof. revert r. induction a as [|[n|c|n] a IH]; intros r; cbn; auto. destruct r; auto. Qed.
Lemma room_disciplined os : forall r r', room_after r os = Some r' -> disciplined r os.
Proof. induction os as [|[n|c|n] os IH]; intros r r'; cbn; eauto. destruct r; [discriminate|eauto]. Qed.

(** what one escape does *)
Definition arg_ok (ex nl : bool) (s : cstr) : Prop := exists out b,
  (forall t, text_of (fst (put_arg ex nl s)) t = t ++ out) /\ snd (put_arg ex nl s) = nl && negb b /\
  (if ex then decodes s out b else out = s /\ b = false) /\
  forall r, exists r', room_after r (fst (put_arg ex nl s)) = Some r' /\ (s = [] -> r' = r) /\ (s <> [] -> 7 <= r').
Lemma arg_step os nl nl' ex s s' (o1 : cstr) b1 :
  put_arg ex nl s' = dop os (put_arg ex nl' s) -> s' <> [] -> nl' = nl && negb b1 ->
  (forall t, text_of os t = t ++ o1) -> (forall r, exists r', room_after r os = Some r' /\ 7 <= r') ->
  (forall out b, (if ex then decodes s out b else out = s /\ b = false) -> if ex then decodes s' (o1 ++ out) (b1 || b) else o1 ++ out = s' /\ b1 || b = false) ->
  arg_ok ex nl' s -> arg_ok ex nl s'.
Proof.
  intros E NE EN HT HR HD (out & b & T & N & D & R). exists (o1 ++ out), (b1 || b). rewrite E. cbn. repeat split.
  - intros t. rewrite text_of_app, HT, T, app_assoc. reflexivity.
  - rewrite N, EN, negb_orb, andb_assoc. reflexivity.
  - apply HD; exact D.
  - intros r. destruct (HR r) as (r1 & E1 & L1). destruct (R r1) as (r2 & E2 & H0 & H1).
    exists r2. rewrite room_app, E1. repeat split; auto; [congruence|]. intros _. destruct s; [rewrite H0 by auto; auto|apply H1; discriminate].
Qed.
Lemma room_check c : forall r, exists r', room_after r [XCheck 1; XPut c] = Some r' /\ 7 <= r'.
Proof. intros r. cbn -[Nat.max]. destruct (Nat.max r 9) eqn:E; [lia|]. eexists; split; [reflexivity|lia]. Qed.
Lemma room_check2 c d : forall r, exists r', room_after r [XCheck 1; XPut c; XPut d] = Some r' /\ 7 <= r'.
Proof. intros r. cbn -[Nat.max]. destruct (Nat.max r 9) as [|[|k]] eqn:E; [lia|lia|]. eexists; split; [reflexivity|lia]. Qed.
Lemma put_arg_ok ex : forall n s, length s <= n -> forall nl, arg_ok ex nl s.
Proof.
  induction n as [|n IH]; intros s H nl.
  { destruct s; [|cbn in H; lia]. exists [], false. cbn. repeat split; auto; [intros; now rewrite app_nil_r|now rewrite andb_true_r|destruct ex; [constructor|auto]|].
    intros r; exists r. repeat split; auto. congruence. }
  destruct s as [|c s].
  { exists [], false. cbn. repeat split; auto; [intros; now rewrite app_nil_r|now rewrite andb_true_r|destruct ex; [constructor|auto]|].
    intros r; exists r. repeat split; auto. congruence. }
  cbn [length] in H.
  destruct (ex && ceq c "\") eqn:EX.
  2:{ eapply (arg_step [XCheck 1; XPut c] nl nl ex s (c :: s) [c] false).
      - cbn [put_arg]. rewrite EX. reflexivity.
      - discriminate.
      - now rewrite andb_true_r.
      - intros t. reflexivity.
      - apply room_check.
      - intros out b D. destruct ex; cbn in EX |- *; [|destruct D as [-> ->]; auto]. apply D_plain; auto. apply ceq_false in EX. exact EX.
      - apply IH. lia. }
  apply andb_prop in EX as [-> EC]. apply ceq_true in EC. subst c.
  destruct s as [|e s].
  { exists [BSL], false. cbn -[Nat.max]. repeat split; auto; [now rewrite andb_true_r|apply D_last|].
    intros r. destruct (room_check BSL r) as (r' & E & L1). exists r'. cbn -[Nat.max] in E. repeat split; auto. discriminate. }
  cbn [length] in H.
  assert (forall z, stands_for e (z mod 256) -> put_arg true nl (BSL :: e :: s) = dop [XCheck 1; XPut (tochar z)] (put_arg true nl s) -> arg_ok true nl (BSL :: e :: s)) as SIMPLE.
  { intros z F E. eapply (arg_step _ nl nl true s _ [tochar z] false); [exact E|discriminate|now rewrite andb_true_r|reflexivity|apply room_check| |apply IH; lia].
    intros out b D. cbn. eapply D_char; eauto. apply tochar_code. }
  destruct (ceq e "a") eqn:Ea; [apply ceq_true in Ea; subst e; now apply (SIMPLE 7%Z); [constructor|reflexivity]|].
  destruct (ceq e "b") eqn:Eb; [apply ceq_true in Eb; subst e; now apply (SIMPLE 8%Z); [constructor|reflexivity]|].
  destruct (ceq e "c") eqn:Ec.
  { apply ceq_true in Ec; subst e. eapply (arg_step [XCheck 1] nl false true s _ [] true); [reflexivity|discriminate|now rewrite andb_false_r|intros; now rewrite app_nil_r| | |apply IH; lia].
    - intros r. eexists. split; [reflexivity|]. lia.
    - intros out b D. cbn. apply (D_c s out b). exact D. }
  destruct (ceq e "f") eqn:Ef; [apply ceq_true in Ef; subst e; now apply (SIMPLE 12%Z); [constructor|reflexivity]|].
  destruct (ceq e "n") eqn:En; [apply ceq_true in En; subst e; now apply (SIMPLE 10%Z); [constructor|reflexivity]|].
  destruct (ceq e "r") eqn:Er; [apply ceq_true in Er; subst e; now apply (SIMPLE 13%Z); [constructor|reflexivity]|].
  destruct (ceq e "t") eqn:Et; [apply ceq_true in Et; subst e; now apply (SIMPLE 9%Z); [constructor|reflexivity]|].
  destruct (ceq e "v") eqn:Ev; [apply ceq_true in Ev; subst e; now apply (SIMPLE 11%Z); [constructor|reflexivity]|].
  destruct (ceq e "0") eqn:E0.
  { apply ceq_true in E0; subst e.
    assert (forall ds s1 z, s = ds ++ s1 -> Forall octal ds -> length ds <= 3 -> (length ds = 3 \/ forall d s', s1 = d :: s' -> ~ octal d) ->
      z = octal_value ds 0 -> put_arg true nl (BSL :: "0"%char :: s) = dop [XCheck 1; XPut (tochar z)] (put_arg true nl s1) -> arg_ok true nl (BSL :: "0"%char :: s)) as OCT.
    { intros ds s1 z -> F L3 M -> E. eapply (arg_step _ nl nl true s1 _ [tochar (octal_value ds 0)] false); [exact E|discriminate|now rewrite andb_true_r|reflexivity|apply room_check| |].
      - intros out b D. cbn. apply D_octal; auto. apply tochar_code.
      - apply IH. rewrite app_length in H. lia. }
    assert (forall d, isoct d = false -> ~ octal d) as NO by (intros d Hd O; apply isoct_octal in O; congruence).
    destruct s as [|d1 s1]; [apply (OCT [] [] 0%Z); auto; right; discriminate|].
    destruct (isoct d1) eqn:O1.
    2:{ apply (OCT [] (d1 :: s1) 0%Z); auto; [right; intros d s' [= <- <-]; auto|]. cbn. rewrite O1. reflexivity. }
    apply isoct_octal in O1 as P1.
    destruct s1 as [|d2 s2]; [apply (OCT [d1] [] (octval d1)); auto; [right; discriminate|cbn; rewrite O1; reflexivity]|].
    destruct (isoct d2) eqn:O2.
    2:{ apply (OCT [d1] (d2 :: s2) (octval d1)); auto; [right; intros d s' [= <- <-]; auto|]. cbn. rewrite O1, O2. reflexivity. }
    apply isoct_octal in O2 as P2.
    destruct s2 as [|d3 s3].
    { apply (OCT [d1; d2] [] (octval d1 * 8 + octval d2)%Z); auto; [right; discriminate|]. cbn. rewrite O1, O2. reflexivity. }
    destruct (isoct d3) eqn:O3.
    2:{ apply (OCT [d1; d2] (d3 :: s3) (octval d1 * 8 + octval d2)%Z); auto; [right; intros d s' [= <- <-]; auto|]. cbn. rewrite O1, O2, O3. reflexivity. }
    apply isoct_octal in O3 as P3.
    apply (OCT [d1; d2; d3] s3 (octval d1 * 64 + octval d2 * 8 + octval d3)%Z); auto; [cbn; unfold octval; lia|]. cbn. rewrite O1, O2, O3. reflexivity. }
  destruct (ceq e "\") eqn:EB.
  { apply ceq_true in EB; subst e. eapply (arg_step [XCheck 1; XPut BSL] nl nl true s _ [BSL] false); [reflexivity|discriminate|now rewrite andb_true_r|reflexivity|apply room_check| |apply IH; lia].
    intros out b D. cbn. eapply D_char; eauto. constructor. }
  eapply (arg_step [XCheck 1; XPut BSL; XPut e] nl nl true s _ [BSL; e] false); [|discriminate|now rewrite andb_true_r|intros; cbn; rewrite <- app_assoc; reflexivity|apply room_check2| |apply IH; lia].
  - cbn [put_arg]. change (true && ceq BSL "\") with true. cbn iota. rewrite Ea, Eb, Ec, Ef, En, Er, Et, Ev, E0, EB. reflexivity.
  - intros out b D. cbn. apply D_other; auto. intros I.
    apply ceq_false in Ea, Eb, Ec, Ef, En, Er, Et, Ev, E0, EB. cbn in I. repeat destruct I as [<-|I]; congruence || destruct I.
Qed.

(** ** The arguments *)
Fixpoint lead (wp : list cstr) : nat := match wp with [] :: wp => S (lead wp) | _ => 0 end.
(** six empty arguments in a row *)
Definition crowded (wp : list cstr) : Prop := exists p s, wp = p ++ repeat [] 6 ++ s.
Lemma lead_repeat wp k : k <= lead wp -> exists s, wp = repeat [] k ++ s.
Proof.
  revert wp. induction k as [|k IH]; intros wp H; [exists wp; reflexivity|].
  destruct wp as [|[|c a] wp]; cbn in H; try lia. destruct (IH wp ltac:(lia)) as (s & ->). exists s. reflexivity.
Qed.
Lemma crowded_tail a wp : ~ crowded (a :: wp) -> ~ crowded wp.
Proof. intros N (p & s & ->). apply N. exists (a :: p), s. reflexivity. Qed.
Lemma crowded_lead wp : ~ crowded wp -> lead wp <= 5.
Proof.
  intros N. destruct (Nat.le_gt_cases (lead wp) 5) as [|G]; auto. exfalso. apply N.
  destruct (lead_repeat wp 6 G) as (s & ->). exists [], s. reflexivity.
Qed.
Definition roomy (wp : list cstr) (r : nat) : Prop := match wp with [] => 2 <= r | _ => lead wp + 1 <= r end.
Lemma put_args_ok ex : forall wp nl r, ~ crowded wp -> roomy wp r -> exists outs bs,
  (forall t, text_of (fst (put_args ex nl wp)) t = t ++ spaced outs) /\ length bs = length outs /\
  snd (put_args ex nl wp) = nl && negb (existsb (fun b => b) bs) /\
  (if ex then Forall2 (fun s ob => decodes s (fst ob) (snd ob)) wp (combine outs bs) else outs = wp /\ existsb (fun b => b) bs = false) /\
  exists r', room_after r (fst (put_args ex nl wp)) = Some r' /\ 2 <= r'.
Proof.
  induction wp as [|s wp IH]; intros nl r N R.
  { exists [], []. cbn. repeat split; [intros; now rewrite app_nil_r|now rewrite andb_true_r|destruct ex; auto|]. exists r. auto. }
  destruct (put_arg_ok ex (length s) s (Nat.le_refl _) nl) as (out & b & T & NL & D & RM).
  cbn [put_args]. destruct (put_arg ex nl s) as [os nl1] eqn:E. cbn in T, NL, RM.
  destruct (RM r) as (r1 & E1 & R0 & R1).
  assert (wp = [] -> 2 <= r1) as RE.
  { intros ->. destruct s; [rewrite R0 by auto; cbn in R; lia|]. assert (7 <= r1) by (apply R1; discriminate). lia. }
  destruct wp as [|s2 wp].
  - exists [out], [b]. cbn. rewrite !app_nil_r. repeat split; auto; [now rewrite orb_false_r| |].
    + destruct ex; [constructor; auto|]. destruct D as [-> ->]. auto.
    + exists r1. auto.
  - assert (exists r2, room_after r (os ++ [XPut " "%char]) = Some r2 /\ roomy (s2 :: wp) r2) as (r2 & E2 & R2).
    { rewrite room_app, E1. cbn -[lead roomy]. destruct s as [|c s].
      - rewrite R0 by auto. change (S (lead (s2 :: wp)) + 1 <= r) in R. destruct r; [lia|]. exists r. split; auto. change (lead (s2 :: wp) + 1 <= r). lia.
      - assert (7 <= r1) by (apply R1; discriminate). destruct r1; [lia|]. exists r1. split; auto. change (lead (s2 :: wp) + 1 <= r1).
        pose proof (crowded_lead _ (crowded_tail _ _ N)). lia. }
    destruct (IH nl1 r2 (crowded_tail _ _ N) R2) as (outs & bs & T' & LN & NL' & D' & r3 & E3 & L3).
    exists (out :: outs), (b :: bs).
    destruct outs as [|o2 outs]; [destruct ex; [inversion D'|destruct D'; discriminate]|].
    repeat split.
    + intros t. cbn [fst dop]. rewrite text_of_app, text_of_app, T, T'. cbn. rewrite <- !app_assoc. reflexivity.
    + cbn in *. lia.
    + cbn [snd dop]. rewrite NL', NL. cbn. rewrite negb_orb, andb_assoc. reflexivity.
    + destruct ex; [cbn [combine]; constructor; auto|]. destruct D as [-> ->], D' as [-> D']. auto.
    + exists r3. split; auto. cbn [fst dop]. rewrite room_app, E2. exact E3.
Qed.
Lemma existsb_In bs : existsb (fun b => b) bs = true <-> In true bs.
Proof. rewrite existsb_exists. split; [intros (x & I & ->); auto|eauto]. Qed.
Lemma build_ok ex nl hist wp : ~ crowded wp -> exists t, build ex nl hist wp = Some (t ++ if hist then [NUL] else []) /\ written ex nl wp t.
Proof.
  intros N. destruct (put_args_ok ex wp nl 8 N) as (outs & bs & T & LN & NL & D & r & E & Lr).
  { pose proof (crowded_lead _ N). unfold roomy. destruct wp; lia. }
  unfold build. destruct (put_args ex nl wp) as [os nl'] eqn:EP. cbn in T, NL, E.
  set (tl := (if nl' then [XPut "010"%char] else []) ++ if hist then [XPut NUL] else []).
  destruct (c49_in_bounds 128 (os ++ tl)) as (x & X1 & X2).
  { apply (room_disciplined _ 8 (r - length tl)). rewrite room_app, E. unfold tl. destruct nl', hist; cbn; destruct r as [|[|r]]; try lia; cbn; rewrite ?Nat.sub_0_r; reflexivity. }
  rewrite X1. unfold xclose in X2. rewrite X2, text_of_app, T.
  exists (spaced outs ++ if nl' then ["010"%char] else []). split.
  - unfold tl. destruct nl', hist; cbn; rewrite <- ?app_assoc, ?app_nil_r; reflexivity.
  - exists outs, (existsb (fun b => b) bs). rewrite <- NL. split; auto. destruct ex; [|destruct D; auto].
    exists bs. repeat split; auto; apply existsb_In.
Qed.

(** ** echo *)
Lemma echo_word_ok s : forall ex nl, Forall (fun c => In c (L "neE")) s ->
  echo_word s ex nl = Some (last_eE s ex, nl && negb (mem "n" s)).
Proof.
  induction s as [|c s IH]; intros ex nl F; [cbn; now rewrite andb_true_r|]. inversion F as [|? ? I F']; subst.
  cbn in I. destruct I as [<-|[<-|[<-|[]]]].
  - change (echo_word s ex false = Some (last_eE s ex, nl && negb true)). rewrite IH by auto. cbn. now rewrite andb_false_r.
  - exact (IH true nl F').
  - exact (IH false nl F').
Qed.
Lemma echo_word_bad s : forall ex nl, echo_word s ex nl <> None -> Forall (fun c => In c (L "neE")) s.
Proof.
  induction s as [|c s IH]; intros ex nl H; [constructor|]. cbn in H. constructor.
  - cbn. destruct (ceq_spec c "n"); auto. destruct (ceq_spec c "e"); auto. destruct (ceq_spec c "E"); auto.
  - destruct (ceq c "n"); [eauto|]. destruct (ceq c "e"); [eauto|]. destruct (ceq c "E"); [eauto|congruence].
Qed.
Lemma echo_opts_ok opts rest : Forall echo_option opts -> (forall w r, rest = w :: r -> ~ echo_option w) -> forall ex nl,
  echo_opts (opts ++ rest) ex nl = (last_eE (concat opts) ex, nl && negb (mem "n" (concat opts)), rest).
Proof.
  intros F R. induction F as [|w opts (ls & -> & NE & FL) F IH]; intros ex nl; cbn [app concat].
  - cbn. rewrite andb_true_r. destruct rest as [|[|d [|c s]] rest]; try reflexivity. cbn [echo_opts].
    destruct (ceq_spec d "-") as [->|]; [|reflexivity]. destruct (echo_word (c :: s) ex nl) as [[ex' nl']|] eqn:E; [|reflexivity].
    exfalso. eapply R; [reflexivity|]. exists (c :: s). repeat split; [discriminate|]. eapply echo_word_bad with (ex := ex) (nl := nl). congruence.
  - destruct ls as [|c ls]; [congruence|]. cbn [echo_opts app]. change (ceq "-" "-") with true. cbn iota.
    rewrite echo_word_ok by auto. rewrite IH. unfold last_eE. f_equal; f_equal.
    + rewrite <- fold_left_app. reflexivity.
    + assert (forall a b, mem "n" (a ++ b) = mem "n" a || mem "n" b) as MA by (intros a b; apply existsb_app).
      change (mem "n" ("-"%char :: c :: ls ++ concat opts)) with (mem "n" ((c :: ls) ++ concat opts)). rewrite MA, negb_orb, andb_assoc. reflexivity.
Qed.

(** ** The options of print *)
Section Env.
Context (coproc_fd : option nat) (check_fd : cstr -> option nat).
Definition letters (opts : cstr) : Prop := opts = L "Rnprsu," \/ opts = L "ne".
Lemma letters_cases opts c k : letters opts -> declares opts c k ->
  (c = "u"%char /\ k = Attached) \/ (In c (L "Rnprse") /\ k = Plain).
Proof.
  intros LE D. destruct (declares_after _ _ _ D) as (Lt & o & A & K).
  pose proof (after_chr_split opts c) as SP. rewrite A in SP. destruct SP as (pre & EO & _).
  assert (In c opts) as I by (rewrite EO; apply in_elt).
  destruct LE as [-> | ->]; cbn in I; repeat destruct I as [<-|I]; try destruct I; vm_compute in A; injection A as <-; cbn in K; first [left; split; [reflexivity|exact K]|right; split; [cbn; auto 10; fail|exact K]|exfalso; apply Lt; cbn; auto 10; fail].
Qed.
Lemma letters_255 opts : letters opts -> ~ In "255"%char opts.
Proof. intros [-> | ->] I; cbn in I; repeat destruct I as [I|I]; discriminate || contradiction. Qed.
Lemma letters_not_silent opts : letters opts -> ~ silent opts.
Proof. intros [-> | ->] (o & E); discriminate. Qed.
Lemma letter_code z c : (-128 <= z < 128)%Z -> (z mod 256 = ccode c)%Z -> (ccode c < 128)%Z -> z = ccode c.
Proof.
  intros B M C. assert (0 <= ccode c < 256)%Z by (unfold ccode; pose proof (N_ascii_bounded c); lia). destruct (Z_lt_le_dec z 0).
  - rewrite <- (Zmod_unique z 256 (-1) (z + 256)) in M by lia. lia.
  - rewrite Z.mod_small in M by lia. exact M.
Qed.
Definition wish_of (f : pflags) : wish := Wish (p_ex f) (p_nl f) (p_hist f) (p_fd f).
Definition ended (argv : list cstr) (m0 : bool) (f : pflags) (rest : list cstr) (mm : bool) (r : option wish) (o : ores) : Prop :=
  match r with
  | None => o = OStop
  | Some w => exists f' g', o = OEnd f' g' /\ wish_of f' = w /\ p_mm f' = p_mm f /\ optind g' <= length argv /\
                            skipn (optind g') argv = rest /\ g_mm g' = m0 || mm
  end.
Lemma print_opts_ok argv : cstrings argv -> forall fuel opts g cur args f, letters opts ->
  at_ argv g cur args -> size_ cur args < fuel ->
  exists evs rest mm o, print_opts coproc_fd check_fd fuel argv g opts f = Ok o /\ o <> OFuel /\ scan opts (plusopt g) cur args evs rest mm /\
    (Exists is_R evs \/ exists r, told coproc_fd check_fd evs (wish_of f) r /\ ended argv (g_mm g) f rest mm r o).
Proof.
  intros CS. induction fuel as [|fuel IH]; intros opts g cur args f LE A SZ; [lia|]. cbn [print_opts].
  destruct (getopt_step argv g opts cur args CS (letters_255 _ LE) A) as (z & g' & E & ST). rewrite E. cbn [bind].
  destruct ST as [rest mm -> SC MM LI SK _ _ _ _|e cur' args' NZ AG KP AT SZ' PO GM _ SC].
  { cbn. exists [], rest, mm, (OEnd f g'). split; auto. split; [discriminate|]. split; auto. right. exists (Some (wish_of f)). split; [constructor|].
    exists f, g'. auto 10. }
  destruct (Z.eqb_spec z (-1)); [contradiction|].
  assert (forall f2 opts2, letters opts2 -> exists o, print_opts coproc_fd check_fd fuel argv g' opts2 f2 = Ok o /\ o <> OFuel) as GO.
  { intros f2 opts2 LE2. destruct (IH opts2 g' cur' args' f2 LE2 AT ltac:(lia)) as (? & ? & ? & o & H & H2 & _). eauto. }
  (* an option that changes the flags to f2 *)
  assert (forall f2, ~ is_R e -> print_opt coproc_fd check_fd f opts z (optarg g') = Ok (Some (f2, opts)) -> p_mm f2 = p_mm f ->
    (forall evs r, told coproc_fd check_fd evs (wish_of f2) r -> told coproc_fd check_fd (e :: evs) (wish_of f) r) ->
    exists evs rest mm o, (do o <- print_opt coproc_fd check_fd f opts z (optarg g') ;
         match o with None => Ok OStop | Some (f, options) => print_opts coproc_fd check_fd fuel argv g' options f end) = Ok o /\ o <> OFuel /\
      scan opts (plusopt g) cur args evs rest mm /\
      (Exists is_R evs \/ exists r, told coproc_fd check_fd evs (wish_of f) r /\ ended argv (g_mm g) f rest mm r o)) as STEP.
  { intros f2 NR EP EM TT. rewrite EP. cbn [bind].
    destruct (IH opts g' cur' args' f2 LE AT ltac:(lia)) as (evs & rest & mm & o & P1 & P2 & P3 & P4). rewrite PO in P3.
    exists (e :: evs), rest, mm, o. split; auto. split; auto. split; auto.
    destruct P4 as [X|(r & T & EN)]; [left; now constructor 2|right]. exists r. split; auto.
    unfold ended in *. rewrite EM, GM in EN. exact EN. }
  assert (forall r, print_opt coproc_fd check_fd f opts z (optarg g') = Ok None -> (forall evs, told coproc_fd check_fd (e :: evs) (wish_of f) r) -> r = None ->
    exists evs rest mm o, (do o <- print_opt coproc_fd check_fd f opts z (optarg g') ;
         match o with None => Ok OStop | Some (f, options) => print_opts coproc_fd check_fd fuel argv g' options f end) = Ok o /\ o <> OFuel /\
      scan opts (plusopt g) cur args evs rest mm /\
      (Exists is_R evs \/ exists r, told coproc_fd check_fd evs (wish_of f) r /\ ended argv (g_mm g) f rest mm r o)) as STOP.
  { intros r EP TT ->. rewrite EP. cbn [bind].
    destruct (IH opts g' cur' args' f LE AT ltac:(lia)) as (evs & rest & mm & o & P1 & P2 & P3 & P4). rewrite PO in P3.
    exists (e :: evs), rest, mm, OStop. split; auto. split; [discriminate|]. split; auto. right. exists None. split; auto. reflexivity. }
  destruct e as [b k c a|b c|b c].
  - destruct AG as (_ & HA & HZ & HM). destruct KP as [D KP].
    destruct (letters_cases _ _ _ LE D) as [[-> ->]|[I ->]].
    + assert (z = ccode "u") as -> by (apply letter_code; auto; reflexivity).
      rewrite HA in * by discriminate. destruct a as [[|x a]|].
      * apply (STEP (PF (p_ex f) (p_nl f) (p_mm f) (p_hist f) 0)); [discriminate|reflexivity|reflexivity|]. intros evs r T. now apply T_u0.
      * destruct (check_fd (x :: a)) as [fd|] eqn:CF.
        -- apply (STEP (PF (p_ex f) (p_nl f) (p_mm f) (p_hist f) fd)); [discriminate|cbn; now rewrite CF|reflexivity|]. intros evs r T. eapply T_u; eauto. discriminate.
        -- apply (STOP None); [cbn; now rewrite CF| |reflexivity]. intros evs. apply T_nou; auto. discriminate.
      * exfalso. assert (exists evs rest mm, scan opts (plusopt g) cur' args' evs rest mm) as (evs & rest & mm & S1).
        { destruct (IH opts g' cur' args' f LE AT ltac:(lia)) as (evs & rest & mm & o & P1 & P2 & P3 & P4). rewrite PO in P3. eauto. }
        apply SC in S1. clear - S1. remember (Opt b Attached "u"%char None :: evs) as l. induction S1; try discriminate; auto.
    + assert (z = ccode c) as -> by (apply letter_code; auto; cbn in I; repeat destruct I as [<-|I]; try reflexivity; destruct I).
      cbn in I. destruct I as [<-|[<-|[<-|[<-|[<-|[<-|[]]]]]]].
      * cbn [print_opt]. change (ccode "R" =? ccode "R")%Z with true. cbn iota. cbn [bind].
        destruct (GO (PF false (p_nl f) true (p_hist f) (p_fd f)) (L "ne") (or_intror eq_refl)) as (o & O1 & O2).
        destruct (IH opts g' cur' args' f LE AT ltac:(lia)) as (evs & rest & mm & o' & P1 & P2 & P3 & P4). rewrite PO in P3.
        exists (Opt b Plain "R"%char a :: evs), rest, mm, o. split; auto. split; auto. split; auto. left. constructor. reflexivity.
      * apply (STEP (PF (p_ex f) false (p_mm f) (p_hist f) (p_fd f))); [discriminate|reflexivity|reflexivity|]. intros evs r T. now apply T_n.
      * destruct coproc_fd as [fd|] eqn:CF.
        -- apply (STEP (PF (p_ex f) (p_nl f) (p_mm f) (p_hist f) fd)); [discriminate|reflexivity|reflexivity|]. intros evs r T. eapply T_p; eauto.
        -- apply (STOP None); [reflexivity| |reflexivity]. intros evs. now apply T_nop.
      * apply (STEP (PF false (p_nl f) (p_mm f) (p_hist f) (p_fd f))); [discriminate|reflexivity|reflexivity|]. intros evs r T. now apply T_r.
      * apply (STEP (PF (p_ex f) (p_nl f) (p_mm f) true (p_fd f))); [discriminate|reflexivity|reflexivity|]. intros evs r T. now apply T_s.
      * apply (STEP (PF true (p_nl f) (p_mm f) (p_hist f) (p_fd f))); [discriminate|reflexivity|reflexivity|]. intros evs r T. now apply T_e.
  - destruct AG as (_ & -> & _). apply (STOP None); [reflexivity| |reflexivity]. intros; apply T_bad.
  - exfalso. assert (exists evs rest mm, scan opts (plusopt g) cur' args' evs rest mm) as (evs & rest & mm & S1).
    { destruct (IH opts g' cur' args' f LE AT ltac:(lia)) as (evs & rest & mm & o & P1 & P2 & P3 & P4). rewrite PO in P3. eauto. }
    apply SC in S1. clear - S1 LE. remember (Missing b c :: evs) as l. induction S1; try discriminate; auto.
    destruct (letters_cases _ _ _ LE H) as [[_ X]|[_ X]]; discriminate.
Qed.
End Env.
