From Verif Require Import Base Word_model Lex_model Syn_model Syn_spec.
From Coq Require Import Lia.
Local Open Scope nat_scope.

Definition hadd (_ : ioword) (l : list lexeme) : option (list lexeme) := Some l.
Definition inal (_ : list lexeme) : bool := false.
Notation LS := (list lexeme).
Notation PS := (PSt LS).
Notation tk := (token_ LS lex_list).
Notation pk := (tpeek LS lex_list).
Notation okk := (Ok LS _).

Definition kwf := fl false true.
Definition tokof (rest : LS) : token := fst (lexl kwf rest).
Definition after (rest : LS) : pst LS := PS (snd (lexl kwf rest)) true (tokof rest).
(** What may follow a command. *)
Definition follow (k : bool) (rest : LS) : bool :=
  match rest with
  | [] | XNl :: _ => true
  | XTok (CTok c) :: _ => ceq c "|" || ceq c ";" || ceq c "&" || ceq c ")"
  | XTok LOGAND :: _ | XTok LOGOR :: _ | XTok COPROC :: _ | XTok BREAK :: _ => true
  | XTok _ :: _ => false
  | XWord _ id :: _ => k && closer id
  end.
Lemma closer_reserved id : closer id = true -> is_reserved id = true.
Proof.
  unfold closer, is_reserved, reserved. rewrite !existsb_exists.
  intros (x & I & E). exists x. split; auto. cbn in *. tauto.
Qed.
Lemma follow_lex k rest cf : follow k rest = true -> contin cf = false -> esaconly cf = false ->
  (k = true -> keyword cf = true) -> lexl cf rest = lexl kwf rest.
Proof.
  intros F C E Kk. destruct rest as [|x rest]; [reflexivity|].
  destruct x as [w id| |t]; cbn in *; rewrite ?C, ?E; try reflexivity.
  apply andb_true_iff in F. destruct F as [-> F]. rewrite (Kk eq_refl). reflexivity.
Qed.
Lemma follow_sane k rest : follow k rest = true ->
  match tokof rest with
  | CTok c => ceq c "(" = false
  | LOGAND | LOGOR | BREAK | COPROC => True
  | KEY id => closer id = true
  | _ => False
  end.
Proof.
  unfold tokof, kwf. destruct rest as [|x rest]; [reflexivity|].
  destruct x as [w id| |t]; cbn [follow lexl fl keyword contin esaconly negb orb andb fst].
  - intros F. apply andb_true_iff in F. destruct F as [-> F]. rewrite (closer_reserved _ F). exact F.
  - reflexivity.
  - destruct t; try discriminate; try trivial. cbn. intros F.
    destruct (ceq c "(") eqn:E; auto. apply ceq_true in E. subst c. discriminate.
Qed.

Lemma set_io_nil t : match t with TOp _ _ _ _ io _ _ _ _ => io = None | TNull => True end -> set_io [] t = t.
Proof. destruct t; cbn; auto. intros ->. reflexivity. Qed.

(** ** Redirections *)
#[local] Opaque NUFILE.
Lemma synio_fresh cf u f sk cl rd w id ts sym :
  synio LS lex_list hadd cf (PS (XTok (REDIR u f sk cl rd) :: XWord w id :: ts) false sym)
  = okk (Some (io_word u f sk cl rd w id)) (PS ts false (LWORD w id)).
Proof. destruct f; reflexivity. Qed.
Lemma synio_rej cf u f sk cl rd w id ts :
  synio LS lex_list hadd cf (PS (XWord w id :: ts) true (REDIR u f sk cl rd))
  = okk (Some (io_word u f sk cl rd w id)) (PS ts false (LWORD w id)).
Proof. destruct f; reflexivity. Qed.
Lemma synio_none k rest cf : follow k rest = true ->
  synio LS lex_list hadd cf (after rest) = okk None (after rest).
Proof.
  intros F. pose proof (follow_sane _ _ F) as S0. unfold synio, after. cbn.
  destruct (tokof rest); try contradiction; reflexivity.
Qed.
Lemma redirs_after k rest n cf io : 1 <= n -> follow k rest = true ->
  redirs LS lex_list hadd n cf io (after rest) = okk io (after rest).
Proof. intros N F. destruct n; [lia|]. cbn [redirs]. rewrite (synio_none _ _ _ F). reflexivity. Qed.
Lemma redirs_ok rs io' : redirections rs io' -> forall k rest n io sym, length io' < n ->
  length (io ++ io') <= NUFILE -> follow k rest = true ->
  redirs LS lex_list hadd n (fl false k) io (PS (rs ++ rest) false sym) = okk (io ++ io') (after rest).
Proof.
  induction 1 as [|u f sk cl rd w id ts io' H IH]; intros k rest n io sym N Le F; (destruct n; [lia|]); cbn [redirs].
  - cbn [app]. unfold synio.
    assert (E : pk (fl false k) (PS rest false sym) = okk (tokof rest) (after rest)).
    { unfold tpeek, after, tokof. cbn [reject lx]. unfold lex_list.
      rewrite (follow_lex k rest (fl false k)); auto. destruct (lexl kwf rest); reflexivity. }
    rewrite E. cbn [bindr]. pose proof (follow_sane _ _ F) as S0.
    rewrite app_nil_r. destruct (tokof rest); try contradiction; reflexivity.
  - cbn [app]. rewrite synio_fresh. cbn [bindr].
    rewrite app_length in Le. cbn [length] in Le, N.
    replace (Nat.leb NUFILE (length io)) with false by (symmetry; apply Nat.leb_gt; lia).
    rewrite IH; auto; [|lia|rewrite !app_length; cbn [length]; lia].
    rewrite <- app_assoc. reflexivity.
Qed.
(** ** Simple commands *)
Section Simple.
Variables posix fkeyword : bool.
Notation sloop := (simple_loop LS lex_list hadd posix fkeyword).
Definition null {A} (l : list A) : bool := match l with [] => true | _ => false end.
Definition assign_words (noargs : bool) (ws : list cstr) : list cstr * list cstr :=
  if fkeyword then assignments true ws else if noargs then leading ws else ([], ws).
Definition dova (its : list item) : bool :=
  match its with IWord _ id :: _ => assign_command posix id | _ => false end.
Lemma assign_words_cons noargs w ws :
  assign_words noargs (w :: ws) =
  if (noargs || fkeyword) && is_wdvarassign w
  then let '(v, a) := assign_words noargs ws in (w :: v, a)
  else let '(v, a) := assign_words false ws in (v, w :: a).
Proof.
  unfold assign_words. destruct fkeyword.
  - unfold assignments. cbn [filter]. rewrite orb_true_r. cbn [andb]. destruct (is_wdvarassign w); reflexivity.
  - rewrite orb_false_r. destruct noargs; cbn [andb leading]; [|reflexivity].
    destruct (is_wdvarassign w); [|reflexivity]. reflexivity.
Qed.
Definition at_items (va noargs : bool) (ts : LS) (s : pst LS) : Prop :=
  pk (fl_simple va noargs) s = okk (fst (lexl (fl false false) ts)) (PS (snd (lexl (fl false false) ts)) true (fst (lexl (fl false false) ts))).
Lemma at_fresh va noargs ts sym : at_items va noargs ts (PS ts false sym).
Proof.
  unfold at_items, tpeek. cbn [reject lx]. unfold lex_list.
  destruct ts as [|[| |] ts]; reflexivity.
Qed.
Lemma simple_ok its : forall n args vars va io s rest,
  length its < n -> follow false rest = true -> length (io ++ redirs_of its) <= NUFILE ->
  at_items va (null args) (flat_map item_lex its ++ rest) s ->
  sloop n args vars va io s =
  okk (let '(v, a) := assign_words (null args) (words_of its) in
       SCom (args ++ a) (vars ++ v) (va || (null io && null vars && null args && dova its))
            (io ++ redirs_of its)) (after rest).
Proof.
  induction its as [|i its IH]; intros n args vars va io s rest N F Le A; (destruct n; [cbn in N; lia|]); cbn [simple_loop].
  - cbn [flat_map app] in A. unfold at_items in A. rewrite (follow_lex false rest) in A; auto; try discriminate.
    fold (null args) (null vars) (null io). rewrite A. cbn [bindr].
    change (fst (lexl kwf rest)) with (tokof rest). fold (after rest).
    pose proof (follow_sane _ _ F) as S0. unfold words_of, redirs_of, dova. cbn [flat_map].
    assert (W : assign_words (null args) [] = ([], [])).
    { unfold assign_words. destruct fkeyword, (null args); reflexivity. }
    rewrite W, !app_nil_r, andb_false_r, orb_false_r.
    destruct (tokof rest); try contradiction; try reflexivity. rewrite S0. reflexivity.
  - fold (null args) (null vars) (null io). destruct i as [w id|u f sk cl rd w id].
    + cbn [flat_map item_lex app] in A. unfold at_items in A. cbn [lexl fl keyword andb fst snd] in A.
      rewrite A. cbn [bindr].
      change (words_of (IWord w id :: its)) with (w :: words_of its).
      change (redirs_of (IWord w id :: its)) with (redirs_of its) in Le |- *.
      cbn [dova]. rewrite assign_words_cons. cbn [length] in N.
      destruct ((null args || fkeyword) && is_wdvarassign w).
      * rewrite (IH n args (vars ++ [w]) _ io _ rest); [|lia|exact F|exact Le|apply at_fresh].
        destruct (assign_words (null args) (words_of its)) as [v a]. f_equal.
        replace (null (vars ++ [w])) with false by (destruct vars; reflexivity).
        rewrite andb_false_r, !andb_false_l, orb_false_r, <- app_assoc. reflexivity.
      * rewrite (IH n (args ++ [w]) vars _ io _ rest); [|lia|exact F|exact Le|apply at_fresh].
        replace (null (args ++ [w])) with false by (destruct args; reflexivity).
        destruct (assign_words false (words_of its)) as [v a]. f_equal.
        rewrite andb_false_r, andb_false_l, orb_false_r, <- app_assoc. reflexivity.
    + cbn [flat_map item_lex app] in A. unfold at_items in A. cbn [lexl fst snd] in A.
      rewrite A. cbn [bindr].
      change (words_of (IRedir u f sk cl rd w id :: its)) with (words_of its).
      change (redirs_of (IRedir u f sk cl rd w id :: its)) with (io_word u f sk cl rd w id :: redirs_of its) in Le |- *.
      rewrite app_length in Le. cbn [length] in Le, N.
      replace (Nat.leb NUFILE (length io)) with false by (symmetry; apply Nat.leb_gt; lia).
      rewrite synio_rej. cbn [bindr].
      rewrite (IH n args vars va (io ++ [io_word u f sk cl rd w id]) _ rest);
        [|lia|exact F|rewrite !app_length; cbn [length]; lia|apply at_fresh].
      destruct (assign_words (null args) (words_of its)) as [v a]. f_equal.
      replace (null (io ++ [io_word u f sk cl rd w id])) with false by (destruct io; reflexivity).
      cbn [dova]. rewrite !andb_false_l, andb_false_r, <- app_assoc. reflexivity.
Qed.
Lemma rsub_ok rs io' : redirections rs io' -> forall n va io s rest,
  length io' < n -> length (io ++ io') <= NUFILE ->
  at_items va true (rs ++ O "(" :: rest) s ->
  sloop n [] [] va io s = okk (SSub (io ++ io')) (PS rest false (CTok "(")).
Proof.
  induction 1 as [|u f sk cl rd w id ts io' H IH]; intros n va io s rest N Le A; (destruct n; [cbn in N; lia|]); cbn [simple_loop].
  - unfold at_items in A. cbn [app lexl O fst snd] in A. rewrite A. cbn [bindr]. rewrite app_nil_r. reflexivity.
  - unfold at_items in A. cbn [app lexl fst snd] in A. rewrite A. cbn [bindr].
    rewrite app_length in Le. cbn [length] in Le, N.
    replace (Nat.leb NUFILE (length io)) with false by (symmetry; apply Nat.leb_gt; lia).
    rewrite synio_rej. cbn [bindr].
    rewrite (IH n va (io ++ [io_word u f sk cl rd w id]) _ rest);
        [|lia|rewrite !app_length; cbn [length]; lia|apply at_fresh].
    rewrite <- app_assoc. reflexivity.
Qed.
End Simple.

(** ** Nested lists of operands *)
Lemma rnest_cons ty x y l : rnest ty (x :: y :: l) = block ty x (rnest ty (y :: l)).
Proof. reflexivity. Qed.
Lemma graft_rnest ty acc x p : graft ty (length acc) (rnest ty (acc ++ [x])) p = rnest ty (acc ++ [x; p]).
Proof.
  induction acc as [|y acc IH]; [reflexivity|].
  destruct acc as [|z acc]; cbn [app length] in *.
  - reflexivity.
  - rewrite (rnest_cons ty y z (acc ++ [x])), (rnest_cons ty y z (acc ++ [x; p])), <- IH. reflexivity.
Qed.
Definition nonnull (t : op) : Prop := is_null t = false.
Lemma rnest_null ty l : Forall nonnull l -> is_null (rnest ty l) = null l.
Proof.
  intros H. destruct l as [|x l]; [reflexivity|]. inversion H; subst.
  destruct l; [assumption|reflexivity].
Qed.

(** ** The parser *)
Section P.
Variables posix fkeyword : bool.
Notation P := (parse LS lex_list hadd inal posix fkeyword).
Notation NN := nonterminal.
Definition Ready (cf : flags) (ts : LS) (s : pst LS) : Prop :=
  tk cf s = okk (fst (lexl cf ts)) (PS (snd (lexl cf ts)) false (fst (lexl cf ts))).
Definition PReady (cf : flags) (ts : LS) (s : pst LS) : Prop :=
  pk cf s = okk (fst (lexl cf ts)) (PS (snd (lexl cf ts)) true (fst (lexl cf ts))).
Lemma lexl_nls cf n ts : contin cf = true -> lexl cf (nls n ++ ts) = lexl cf ts.
Proof. intros C. induction n as [|n IH]; [reflexivity|]. cbn. rewrite C. exact IH. Qed.
Lemma fresh cf ts sym : Ready cf ts (PS ts false sym).
Proof. unfold Ready, token_. cbn [reject lx]. unfold lex_list. destruct (lexl cf ts); reflexivity. Qed.
Lemma fresh_nls cf n ts sym : contin cf = true -> Ready cf ts (PS (nls n ++ ts) false sym).
Proof. intros C. unfold Ready. rewrite <- (lexl_nls cf n ts C). apply fresh. Qed.
Lemma pfresh cf ts sym : PReady cf ts (PS ts false sym).
Proof. unfold PReady, tpeek. cbn [reject lx]. unfold lex_list. destruct (lexl cf ts); reflexivity. Qed.
Lemma tk_after cf rest : tk cf (after rest) = okk (tokof rest) (PS (snd (lexl kwf rest)) false (tokof rest)).
Proof. reflexivity. Qed.
Lemma rej_after rest : rej LS (PS (snd (lexl kwf rest)) false (tokof rest)) = after rest.
Proof. reflexivity. Qed.
Lemma lexl_K cf s ts : keyword cf = true -> esaconly cf = false -> is_reserved (L s) = true ->
  lexl cf (K s :: ts) = (KEY (L s), ts).
Proof. intros A B C. unfold K. cbn [lexl]. rewrite A, B, C. reflexivity. Qed.
Lemma after_K s ts : is_reserved (L s) = true -> after (K s :: ts) = PS ts true (KEY (L s)).
Proof. intros R. unfold after, tokof. rewrite lexl_K; auto. Qed.
Lemma Ready_K cf s ts st : Ready cf (K s :: ts) st ->
  keyword cf = true -> esaconly cf = false -> is_reserved (L s) = true ->
  tk cf st = okk (KEY (L s)) (PS ts false (KEY (L s))).
Proof. intros H A B C. unfold Ready in H. rewrite lexl_K in H; auto. Qed.

Lemma closes_follow m k rest : closes m k rest = true -> follow k rest = true.
Proof.
  unfold closes, follow. destruct rest as [|[w id| |t] rest]; auto.
  destruct t; auto. intros ->. rewrite !orb_true_r. reflexivity.
Qed.
Definition ends (m : bool) (t : token) : Prop :=
  t = CTok NUL \/ (t = CTok NL /\ m = false) \/ t = CTok ")" \/ t = BREAK \/ (exists id, t = KEY id /\ closer id = true).
Lemma closes_tok m k rest : closes m k rest = true -> ends m (tokof rest).
Proof.
  unfold ends. destruct rest as [|[w id| |t] rest].
  - left; reflexivity.
  - cbn [closes]. intros H. apply andb_true_iff in H. destruct H as [_ H].
    right; right; right; right. exists id. split; auto.
    unfold tokof, kwf. cbn [lexl fl keyword esaconly]. rewrite (closer_reserved _ H). reflexivity.
  - cbn [closes]. intros H. right; left. split; [reflexivity|]. destruct m; auto; discriminate.
  - cbn [closes]. destruct t; try discriminate; intros H.
    + apply ceq_true in H. subst. right; right; left; reflexivity.
    + right; right; right; left; reflexivity.
Qed.
Lemma closer_cases id (Q : cstr -> Prop) : closer id = true ->
  Forall Q (map L ["then"; "else"; "elif"; "fi"; "do"; "done"; "esac"; "}"]%string) -> Q id.
Proof.
  unfold closer. rewrite existsb_exists. intros (x & I & E) F. rewrite Forall_forall in F.
  apply str_eqb_true in E. subst x. auto.
Qed.
Lemma gc_null m k rest n s : closes m k rest = true -> Ready (fl_cmd false) rest s ->
  P (S n) (NCommand false) s = okk TNull (after rest).
Proof.
  intros C R. cbn [parse]. unfold get_command_.
  pose proof (closes_follow _ _ _ C) as F. pose proof (closes_tok _ _ _ C) as T.
  unfold Ready in R. rewrite (follow_lex k rest (fl_cmd false) F) in R; auto.
  change (fst (lexl kwf rest)) with (tokof rest) in R. rewrite R. cbn [bindr].
  assert (E : rej LS (PS (snd (lexl kwf rest)) false (tokof rest)) = after rest) by reflexivity.
  rewrite E. clear R E. generalize (after rest). intros a.
  destruct T as [T|[(T & _)|[T|[T|(id & T & I)]]]]; rewrite T; try reflexivity.
  pattern id. apply (closer_cases id _ I). repeat constructor.
Qed.

Notation B := (bindr LS).
Definition P_cmd (ts : LS) (t : op) (k o : bool) : Prop :=
  nonnull t /\ exists N, forall n, N <= n -> forall ct s rest,
    Ready (fl_cmd ct) (ts ++ rest) s -> follow k rest = true ->
    (o = true -> is_op "|" (tokof rest) = false) ->
    P n (NCommand ct) s = okk t (after rest).
Definition P_pipe (ts : LS) (l : list op) (k : bool) : Prop :=
  Forall nonnull l /\ l <> [] /\ exists N, forall n, N <= n -> forall acc ct s rest,
    Ready (fl_cmd ct) (ts ++ rest) s -> follow k rest = true -> is_op "|" (tokof rest) = false ->
    exists p s', P n (NCommand ct) s = okk p s' /\ is_null p = false /\
      P n (NPipeLoop (length acc) (rnest T_PIPE (acc ++ [p]))) s' = okk (rnest T_PIPE (acc ++ l)) (after rest).
Definition P_andors (ts : LS) (t : op) (k : bool) : Prop :=
  nonnull t /\ exists N d, forall n, N <= n -> forall s rest,
    Ready (fl_cmd false) (ts ++ rest) s -> follow k rest = true -> is_op "|" (tokof rest) = false ->
    P (d + n) NAndor s = P n (NAndorLoop t) (after rest).
Definition P_lst (m : bool) (ts : LS) (els : list op) (k : bool) : Prop :=
  Forall nonnull els /\ exists N, forall n, N <= n -> forall acc s rest,
    Forall nonnull acc ->
    Ready (fl_cmd false) (ts ++ rest) s -> closes m k rest = true ->
    P n (NListLoop m (rnest T_LIST acc) (pred (length acc))) s = okk (rnest T_LIST (acc ++ els)) (after rest).
Definition P_dog (ts : LS) (t : op) : Prop :=
  exists N, forall n, N <= n -> forall s rest, Ready (fl true true) (ts ++ rest) s ->
    exists sym, P n NDo s = okk t (PS rest false sym).
Definition P_thn (ts : LS) (t : op) : Prop :=
  exists N, forall n, N <= n -> forall rest,
    P n NThen (after (ts ++ K "fi" :: rest)) = okk t (after (K "fi" :: rest)).
Definition P_els (ts : LS) (t : op) : Prop :=
  closes true true (ts ++ [K "fi"]) = true /\
  exists N, forall n, N <= n -> forall rest,
    P n NElse (after (ts ++ K "fi" :: rest)) = okk t (after (K "fi" :: rest)).
Definition P_cases (ts : LS) (t : op) : Prop :=
  exists N, forall n, N <= n -> forall e s rest, e = "esac"%string \/ e = "}"%string ->
    PReady (fl_kw true true) (ts ++ K e :: rest) s ->
    P n (NCaseLoop (L e)) s = okk t (PS rest true (KEY (L e))).

Lemma pipe_tree ts l k : P_pipe ts l k -> is_null (rnest T_PIPE l) = false.
Proof. intros (A & B & _). rewrite rnest_null; auto. destruct l; [contradiction|reflexivity]. Qed.
(** A whole pipeline, and a whole list. *)
Lemma run_pipe ts l k : P_pipe ts l k -> exists N, forall n, N <= n -> forall ct s rest,
  Ready (fl_cmd ct) (ts ++ rest) s -> follow k rest = true -> is_op "|" (tokof rest) = false ->
  P n (NPipeline ct) s = okk (rnest T_PIPE l) (after rest).
Proof.
  intros (_ & _ & N & H). exists (S N). intros n Ln ct s rest R F T.
  destruct n as [|n]; [lia|]. cbn [parse]. unfold pipeline_.
  destruct (H n ltac:(lia) [] ct s rest R F T) as (p & s' & E1 & E2 & E3).
  rewrite E1. cbn [bindr]. rewrite E2. exact E3.
Qed.
Lemma run_lst m ts els k : P_lst m ts els k -> exists N, forall n, N <= n -> forall sym rest,
  closes m k rest = true -> P n (NList m) (PS (ts ++ rest) false sym) = okk (rnest T_LIST els) (after rest).
Proof.
  intros (_ & N & H). exists (S N). intros n Ln sym rest C.
  destruct n as [|n]; [lia|]. cbn [parse]. unfold c_list_.
  apply (H n ltac:(lia) [] (PS (ts ++ rest) false sym) rest); auto. apply fresh.
Qed.
Lemma fin n rs io t k sym rest : redirections rs io -> length io < n -> length io <= NUFILE -> follow k rest = true ->
  B (redirs LS lex_list hadd n (fl false k) [] (PS (rs ++ rest) false sym)) (fun io s => okk (set_io io t) s)
  = okk (set_io io t) (after rest).
Proof. intros R Ln Lf F. rewrite (redirs_ok rs io R k rest n [] sym); auto. Qed.
Lemma nonnull_set_io io t : nonnull t -> nonnull (set_io io t).
Proof. destruct t; auto. Qed.
Lemma mk_K cf s ts sym : keyword cf = true -> esaconly cf = false -> is_reserved (L s) = true ->
  musthave LS lex_list (is_key (L s)) cf (after (K s :: ts)) = okk tt (PS ts false (KEY (L s))) /\
  musthave LS lex_list (is_key (L s)) cf (PS (K s :: ts) false sym) = okk tt (PS ts false (KEY (L s))).
Proof.
  intros A B C. unfold musthave. split.
  - rewrite after_K by assumption. cbn. rewrite str_eqb_refl. reflexivity.
  - rewrite (Ready_K cf s ts) by (auto using fresh). cbn. rewrite str_eqb_refl. reflexivity.
Qed.

(** *** Commands *)
Lemma case_simple its vars args :
  not_reserved_first its = true -> length (redirs_of its) <= NUFILE ->
  assignments fkeyword (words_of its) = (vars, args) ->
  P_cmd (flat_map item_lex its)
        (set_io (redirs_of its)
           (TOp T_COM (match its with IWord _ id :: _ => if assign_command posix id then DOVACHECK else 0 | _ => 0 end)
                (Some args) (Some vars) None TNull TNull None 0)) false false.
Proof.
  intros NR Le A. split; [reflexivity|]. exists (S (S (length its))). intros n Ln ct s rest R F _.
  destruct n as [|n]; [lia|]. cbn [parse]. unfold get_command_.
  assert (X : exists tok rst, lexl (fl false false) (flat_map item_lex its ++ rest) = (tok, rst) /\
            tk (fl_cmd ct) s = okk tok (PS rst false tok) /\
            match tok with LWORD _ _ | REDIR _ _ _ _ _ => True | _ => False end).
  { unfold Ready in R. destruct its as [|i its]; [discriminate|].
    destruct i as [w id|u f sk cl rd w id]; cbn [not_reserved_first flat_map item_lex app lexl] in *.
    - rewrite negb_true_iff in NR. rewrite NR, andb_false_r in R. cbn [andb fst snd fl keyword] in *. eauto 6.
    - cbn [fst snd] in R. eauto 6. }
  destruct X as (tok & rst & X1 & X2 & X3). rewrite X2. cbn [bindr].
  assert (S0 : simple_loop LS lex_list hadd posix fkeyword n [] [] false [] (PS rst true tok)
    = okk (SCom args vars (dova posix its) (redirs_of its)) (after rest)).
  { rewrite (simple_ok posix fkeyword its n [] [] false [] _ rest); auto; [|lia|].
    - unfold assign_words, assignments in *. cbn [null]. destruct fkeyword; [|rewrite A; reflexivity].
      injection A as <- <-. reflexivity.
    - unfold at_items. rewrite X1. reflexivity. }
  assert (D : forall b : bool, (if dova posix its then DOVACHECK else 0%Z) =
     match its with IWord _ id :: _ => if assign_command posix id then DOVACHECK else 0%Z | _ => 0%Z end).
  { intros _. destruct its as [|[w id|] its]; reflexivity. }
  destruct tok; try contradiction; unfold rej; cbn [lx symbol]; rewrite S0; cbn [bindr];
    rewrite (redirs_after false rest) by (auto; lia); cbn [bindr]; rewrite (D true); reflexivity.
Qed.
Lemma nested_ok ty mark (s : pst LS) ts els k rest n N sym' : 
  (forall n, N <= n -> forall sym rest, closes true k rest = true -> P n (NList true) (PS (ts ++ rest) false sym) = okk (rnest T_LIST els) (after rest)) ->
  S N <= n -> closes true k (mark :: rest) = true -> forall sym em,
  em (tokof (mark :: rest)) = true -> snd (lexl kwf (mark :: rest)) = rest -> tokof (mark :: rest) = sym' ->
  P n (NNested ty em) (PS (ts ++ mark :: rest) false sym) = okk (block ty (rnest T_LIST els) TNull) (PS rest false sym').
Proof.
  intros H Ln C sym em E1 E2 E3. destruct n as [|n]; [lia|]. cbn [parse]. unfold nested_.
  rewrite H by (auto; lia). cbn [bindr]. unfold musthave. rewrite tk_after. cbn [bindr]. rewrite E1. cbn [bindr].
  rewrite E2, E3. reflexivity.
Qed.
Lemma case_sub ts els k rs io : P_lst true ts els k -> redirections rs io -> length io <= NUFILE ->
  P_cmd (O "(" :: ts ++ O ")" :: rs) (set_io io (block T_PAREN (rnest T_LIST els) TNull)) true false.
Proof.
  intros Hl R Le. split; [reflexivity|]. destruct (run_lst _ _ _ _ Hl) as (N & H).
  exists (S (S N) + S (length io)). intros n Ln ct s rest Rd F _.
  destruct n as [|n]; [lia|]. cbn [parse]. unfold get_command_.
  unfold Ready in Rd. cbn [app lexl O fst snd] in Rd. rewrite Rd. cbn [bindr].
  change (ceq "(" "(") with true. cbv iota. rewrite <- app_assoc. cbn [app].
  rewrite (nested_ok T_PAREN (O ")") s ts els k (rs ++ rest) n N (CTok ")")) by (auto; lia).
  cbn [bindr]. apply (fin n rs io); auto. lia.
Qed.
Lemma case_rsub rs0 io0 ts els k rs io :
  redirections rs0 io0 -> io0 <> [] -> P_lst true ts els k -> redirections rs io -> length (io0 ++ io) <= NUFILE ->
  P_cmd (rs0 ++ O "(" :: ts ++ O ")" :: rs) (set_io (io0 ++ io) (block T_PAREN (rnest T_LIST els) TNull)) false false.
Proof.
  intros R0 Ne Hl R Le. split; [reflexivity|]. destruct (run_lst _ _ _ _ Hl) as (N & H).
  exists (S (S N) + S (length io0 + length io)). intros n Ln ct s rest Rd F _.
  destruct n as [|n]; [lia|]. cbn [parse]. unfold get_command_.
  rewrite <- app_assoc in Rd. cbn [app] in Rd. rewrite <- app_assoc in Rd. cbn [app] in Rd.
  assert (X : exists u f sk cl rd rst, lexl (fl false false) (rs0 ++ O "(" :: ts ++ O ")" :: rs ++ rest) = (REDIR u f sk cl rd, rst) /\
            tk (fl_cmd ct) s = okk (REDIR u f sk cl rd) (PS rst false (REDIR u f sk cl rd))).
  { unfold Ready in Rd. destruct R0; [contradiction|]. cbn [app lexl fst snd] in *. eauto 10. }
  destruct X as (u & f & sk & cl & rd & rst & X1 & X2). rewrite X2. cbn [bindr].
  rewrite app_length in Le.
  rewrite (rsub_ok posix fkeyword rs0 io0 R0 n false [] _ (ts ++ O ")" :: rs ++ rest)); [|lia|cbn [app]; lia|].
  2:{ unfold at_items. rewrite X1. reflexivity. }
  cbn [bindr app].
  rewrite (nested_ok T_PAREN (O ")") s ts els k (rs ++ rest) n N (CTok ")")) by (auto; lia).
  cbn [bindr]. rewrite (redirs_ok rs io R false rest n io0); auto; [lia|rewrite app_length; lia].
Qed.
Lemma case_brace ts els rs io : P_lst true ts els true -> redirections rs io -> length io <= NUFILE ->
  P_cmd (K "{" :: ts ++ K "}" :: rs) (set_io io (block T_BRACE (rnest T_LIST els) TNull)) true false.
Proof.
  intros Hl R Le. split; [reflexivity|]. destruct (run_lst _ _ _ _ Hl) as (N & H).
  exists (S (S N) + S (length io)). intros n Ln ct s rest Rd F _.
  destruct n as [|n]; [lia|]. cbn [parse]. unfold get_command_.
  cbn [app] in Rd. rewrite (Ready_K _ _ _ _ Rd eq_refl eq_refl eq_refl). cbn [bindr].
  change (str_eqb (L "{") (L "{")) with true. cbv iota. rewrite <- app_assoc. cbn [app].
  rewrite (nested_ok T_BRACE (K "}") s ts els true (rs ++ rest) n N (KEY (L "}"))) by (auto; lia).
  cbn [bindr]. apply (fin n rs io); auto. lia.
Qed.
Lemma case_let w id rs io : redirections rs io -> length io <= NUFILE ->
  P_cmd (XTok MDPAREN :: XWord w id :: rs)
    (set_io io (TOp T_COM 0 (Some [encode (L "let"); w]) (Some []) None TNull TNull None 0)) true false.
Proof.
  intros R Le. split; [reflexivity|]. exists (S (S (length io))). intros n Ln ct s rest Rd F _.
  destruct n as [|n]; [lia|]. cbn [parse]. unfold get_command_.
  unfold Ready in Rd. cbn [app lexl fst snd] in Rd. rewrite Rd. cbn [bindr].
  change (musthave_word LS lex_list fl_let (PS (XWord w id :: rs ++ rest) false MDPAREN)) with (okk (w, id) (PS (rs ++ rest) false (LWORD w id))).
  cbn [bindr fst]. apply (fin n rs io); auto. lia.
Qed.

Ltac keys :=
  repeat match goal with
  | |- context [str_eqb (L ?a) (L ?b)] =>
    let v := eval vm_compute in (str_eqb (L a) (L b)) in change (str_eqb (L a) (L b)) with v
  end; cbn [orb]; cbv iota.
Ltac start n Ln ct s rest Rd F :=
  intros n Ln ct s rest Rd F _; (destruct n as [|n]; [lia|]); cbn [parse]; unfold get_command_;
  cbn [app] in Rd; rewrite (Ready_K _ _ _ _ Rd eq_refl eq_refl eq_refl); cbn [bindr]; keys.

Lemma words_ok ws : forall n acc sep rest sym, length ws < n -> sep = O ";" \/ sep = XNl ->
  exists sym', words LS lex_list n acc (PS (map (fun p => XWord (fst p) (snd p)) ws ++ sep :: rest) false sym)
  = okk (acc ++ map fst ws) (PS rest false sym').
Proof.
  induction ws as [|[w id] ws IH]; intros n acc sep rest sym Ln S0; (destruct n; [cbn in Ln; lia|]).
  - rewrite app_nil_r. destruct S0 as [-> | ->]; eexists; reflexivity.
  - cbn [length] in Ln. destruct (IH n (acc ++ [w]) sep rest (LWORD w id) ltac:(lia) S0) as (sym' & E).
    exists sym'. cbn [map fst snd app]. rewrite <- app_assoc in E. exact E.
Qed.
Lemma wordlist_ok ns vs : names ns vs -> exists N, forall n, N <= n -> forall sym ts t rest,
  dog posix fkeyword ts t ->
  exists s', wordlist LS lex_list n (PS (ns ++ ts ++ rest) false sym) = okk vs s' /\ Ready (fl true true) (ts ++ rest) s'.
Proof.
  intros H. destruct H as [|m|m ws sep0 S0].
  - exists 0. intros n _ sym ts t rest D. cbn [app]. unfold wordlist.
    assert (X : exists k rst, lexl (fl true true) (ts ++ rest) = (KEY k, rst) /\ str_eqb (L "in") k = false).
    { destruct D; rewrite <- app_assoc, lexl_nls by reflexivity; cbn [app]; rewrite lexl_K by reflexivity; eauto. }
    destruct X as (k & rst & X1 & X2).
    pose proof (fresh (fl true true) (ts ++ rest) sym) as R. unfold Ready in R. rewrite R, X1. cbn [fst snd bindr is_key].
    rewrite X2. cbv iota. eexists. split; [reflexivity|]. unfold Ready. rewrite X1. reflexivity.
  - exists 0. intros n _ sym ts t rest D. unfold wordlist. rewrite <- app_assoc. cbn [app].
    pose proof (fresh_nls (fl true true) m (O ";" :: ts ++ rest) sym eq_refl) as R. unfold Ready in R. rewrite R.
    cbn [O lexl fst snd bindr is_key is_op]. eexists. split; [reflexivity|]. apply fresh.
  - exists (S (length ws)). intros n Ln sym ts t rest D. unfold wordlist. rewrite <- app_assoc. cbn [app].
    rewrite <- app_assoc. cbn [app].
    pose proof (fresh_nls (fl true true) m (K "in" :: map (fun p => XWord (fst p) (snd p)) ws ++ sep0 :: ts ++ rest) sym eq_refl) as R.
    rewrite (Ready_K _ _ _ _ R eq_refl eq_refl eq_refl). cbn [bindr is_key]. rewrite str_eqb_refl.
    destruct (words_ok ws n [] sep0 (ts ++ rest) (KEY (L "in")) ltac:(lia) S0) as (sym' & E). rewrite E. cbn [bindr].
    eexists. split; [reflexivity|]. apply fresh.
Qed.
Lemma case_for (sel : bool) w id ns vs ts t rs io :
  is_wdvarname_a w = true -> names ns vs -> dog posix fkeyword ts t -> P_dog ts t ->
  redirections rs io -> length io <= NUFILE ->
  P_cmd (K (if sel then "select" else "for") :: XWord w id :: ns ++ ts ++ rs)
        (set_io io (TOp (if sel then T_SELECT else T_FOR) 0 None vs None t TNull (Some (id ++ [NUL])) 0)) true false.
Proof.
  intros V Hn Dg (N & H) R Le. split; [destruct sel; reflexivity|].
  destruct (wordlist_ok ns vs Hn) as (N2 & H2).
  assert (G : exists N, forall n, N <= n -> forall (str : cstr) ty rest sym, follow true rest = true ->
    B (musthave_word LS lex_list fl_array (PS (XWord w id :: ns ++ ts ++ rs ++ rest) false sym))
      (fun wi s => if negb (is_wdvarname_a (fst wi)) then Fail LS op else
        B (wordlist LS lex_list n s) (fun ws s => B (P n NDo s) (fun body s =>
          B (redirs LS lex_list hadd n (fl false true) [] s) (fun io s =>
           okk (set_io io (TOp ty 0 None ws None body TNull (Some (snd wi ++ [NUL])) 0)) s))))
    = okk (set_io io (TOp ty 0 None vs None t TNull (Some (id ++ [NUL])) 0)) (after rest)).
  { exists (N + N2 + S (length io)). intros n Ln str ty rest sym F.
    change (musthave_word LS lex_list fl_array (PS (XWord w id :: ns ++ ts ++ rs ++ rest) false sym))
      with (okk (w, id) (PS (ns ++ ts ++ rs ++ rest) false (LWORD w id))).
    cbn [bindr fst snd]. rewrite V. cbn [negb].
    destruct (H2 n ltac:(lia) (LWORD w id) ts t (rs ++ rest) Dg) as (s' & E & Rd). rewrite E. cbn [bindr].
    destruct (H n ltac:(lia) s' (rs ++ rest) Rd) as (sym' & E'). rewrite E'. cbn [bindr].
    apply (fin n rs io); auto. lia. }
  destruct G as (N3 & G). exists (S N3).
  intros n Ln ct s rest Rd F _. destruct n as [|n]; [lia|]. cbn [parse]. unfold get_command_.
  cbn [app] in Rd. rewrite <- !app_assoc in Rd.
  destruct sel; rewrite (Ready_K _ _ _ _ Rd eq_refl eq_refl eq_refl); cbn [bindr]; keys.
  - apply G; auto. lia.
  - apply G; auto. lia.
Qed.
Lemma dog_do n0 ts els : P_lst true ts els true -> P_dog (nls n0 ++ K "do" :: ts ++ [K "done"]) (rnest T_LIST els).
Proof.
  intros Hl. destruct (run_lst _ _ _ _ Hl) as (N & H). exists (S N). intros n Ln s rest Rd.
  destruct n as [|n]; [lia|]. cbn [parse]. unfold dogroup_.
  unfold Ready in Rd. rewrite <- app_assoc, lexl_nls in Rd by reflexivity. fold (Ready (fl true true) ((K "do" :: ts ++ [K "done"]) ++ rest) s) in Rd.
  cbn [app] in Rd. rewrite (Ready_K _ _ _ _ Rd eq_refl eq_refl eq_refl). cbn [bindr is_key]. keys.
  rewrite <- app_assoc. cbn [app]. rewrite H by (auto; lia). cbn [bindr].
  rewrite (proj1 (mk_K (fl false true) "done" rest (CTok NUL) eq_refl eq_refl eq_refl)). cbn [bindr]. eauto.
Qed.
Lemma dog_brace n0 ts els : P_lst true ts els true -> P_dog (nls n0 ++ K "{" :: ts ++ [K "}"]) (rnest T_LIST els).
Proof.
  intros Hl. destruct (run_lst _ _ _ _ Hl) as (N & H). exists (S N). intros n Ln s rest Rd.
  destruct n as [|n]; [lia|]. cbn [parse]. unfold dogroup_.
  unfold Ready in Rd. rewrite <- app_assoc, lexl_nls in Rd by reflexivity. fold (Ready (fl true true) ((K "{" :: ts ++ [K "}"]) ++ rest) s) in Rd.
  cbn [app] in Rd. rewrite (Ready_K _ _ _ _ Rd eq_refl eq_refl eq_refl). cbn [bindr is_key]. keys.
  rewrite <- app_assoc. cbn [app]. rewrite H by (auto; lia). cbn [bindr].
  rewrite (proj1 (mk_K (fl false true) "}" rest (CTok NUL) eq_refl eq_refl eq_refl)). cbn [bindr]. eauto.
Qed.
Lemma case_while (u : bool) ts els ts' els' rs io :
  P_lst true ts els true -> els <> [] -> P_lst true ts' els' true ->
  redirections rs io -> length io <= NUFILE ->
  P_cmd (K (if u then "until" else "while") :: ts ++ K "do" :: ts' ++ K "done" :: rs)
        (set_io io (block (if u then T_UNTIL else T_WHILE) (rnest T_LIST els) (rnest T_LIST els'))) true false.
Proof.
  intros Hl Ne Hl' R Le. split; [destruct u; reflexivity|].
  destruct (run_lst _ _ _ _ Hl) as (N & H). destruct (run_lst _ _ _ _ Hl') as (N' & H').
  assert (Nn : is_null (rnest T_LIST els) = false).
  { rewrite rnest_null by apply Hl. destruct els; [contradiction|reflexivity]. }
  exists (2 + N + N' + S (length io)).
  intros n Ln ct s rest Rd F _. destruct n as [|n]; [lia|]. cbn [parse]. unfold get_command_.
  cbn [app] in Rd. rewrite <- app_assoc in Rd. cbn [app] in Rd. rewrite <- app_assoc in Rd. cbn [app] in Rd.
  assert (D : P n NDo (after (K "do" :: ts' ++ K "done" :: rs ++ rest)) = okk (rnest T_LIST els') (PS (rs ++ rest) false (KEY (L "done")))).
  { destruct n as [|n]; [lia|]. cbn [parse]. unfold dogroup_. rewrite after_K by reflexivity.
    unfold token_. cbn [reject symbol lx bindr is_key]. keys.
    rewrite H' by (auto; lia). cbn [bindr].
    rewrite (proj1 (mk_K (fl false true) "done" (rs ++ rest) (CTok NUL) eq_refl eq_refl eq_refl)). reflexivity. }
  destruct u; rewrite (Ready_K _ _ _ _ Rd eq_refl eq_refl eq_refl); cbn [bindr]; keys;
    (rewrite H by (auto; lia)); cbn [bindr]; rewrite Nn, D; cbn [bindr]; apply (fin n rs io); auto; lia.
Qed.
Lemma case_if ts els ts' t rs io :
  P_lst true ts els true -> thn posix fkeyword ts' t -> P_thn ts' t -> redirections rs io -> length io <= NUFILE ->
  P_cmd (K "if" :: ts ++ ts' ++ K "fi" :: rs) (set_io io (block T_IF (rnest T_LIST els) t)) true false.
Proof.
  intros Hl T (N' & H') R Le. split; [reflexivity|].
  destruct (run_lst _ _ _ _ Hl) as (N & H). exists (S N + N' + S (length io)).
  intros n Ln ct s rest Rd F _. destruct n as [|n]; [lia|]. cbn [parse]. unfold get_command_.
  cbn [app] in Rd. rewrite <- !app_assoc in Rd. cbn [app] in Rd.
  rewrite (Ready_K _ _ _ _ Rd eq_refl eq_refl eq_refl); cbn [bindr]; keys.
  rewrite H; [|lia|destruct T; reflexivity]. cbn [bindr].
  rewrite H' by lia. cbn [bindr].
  rewrite (proj1 (mk_K (fl false true) "fi" (rs ++ rest) (CTok NUL) eq_refl eq_refl eq_refl)). cbn [bindr].
  apply (fin n rs io); auto. lia.
Qed.
Lemma case_then ts els ts' r : P_lst true ts els true -> els <> [] -> P_els ts' r ->
  P_thn (K "then" :: ts ++ ts') (block 0 (rnest T_LIST els) r).
Proof.
  intros Hl Ne (C & N' & H'). destruct (run_lst _ _ _ _ Hl) as (N & H). exists (S N + N').
  intros n Ln rest. destruct n as [|n]; [lia|]. cbn [parse]. unfold thenpart_. cbn [app].
  rewrite (proj1 (mk_K (fl false true) "then" _ (CTok NUL) eq_refl eq_refl eq_refl)). cbn [bindr].
  rewrite <- app_assoc. rewrite H; [|lia|].
  2:{ destruct ts' as [|x ts']; [reflexivity|]. exact C. }
  cbn [bindr]. rewrite rnest_null by apply Hl. destruct els; [contradiction|]. cbn [null].
  rewrite H' by lia. reflexivity.
Qed.
Lemma case_noelse : P_els [] TNull.
Proof.
  split; [reflexivity|]. exists 1. intros n Ln rest. destruct n as [|n]; [lia|]. cbn [parse]. unfold elsepart_. cbn [app].
  rewrite after_K by reflexivity. reflexivity.
Qed.
Lemma case_else ts els : P_lst true ts els true -> els <> [] -> P_els (K "else" :: ts) (rnest T_LIST els).
Proof.
  intros Hl Ne. split; [reflexivity|]. destruct (run_lst _ _ _ _ Hl) as (N & H). exists (S N).
  intros n Ln rest. destruct n as [|n]; [lia|]. cbn [parse]. unfold elsepart_. cbn [app].
  rewrite after_K by reflexivity. unfold token_. cbn [reject symbol lx bindr is_key]. keys.
  rewrite H by (auto; lia). cbn [bindr]. rewrite rnest_null by apply Hl. destruct els; [contradiction|]. reflexivity.
Qed.
Lemma case_elif ts els ts' t : P_lst true ts els true -> thn posix fkeyword ts' t -> P_thn ts' t ->
  P_els (K "elif" :: ts ++ ts') (block T_ELIF (rnest T_LIST els) t).
Proof.
  intros Hl T (N' & H'). split; [reflexivity|]. destruct (run_lst _ _ _ _ Hl) as (N & H). exists (S N + N').
  intros n Ln rest. destruct n as [|n]; [lia|]. cbn [parse]. unfold elsepart_. cbn [app].
  rewrite after_K by reflexivity. unfold token_. cbn [reject symbol lx bindr is_key]. keys.
  rewrite <- app_assoc. rewrite H; [|lia|destruct T; reflexivity]. cbn [bindr]. rewrite H' by lia. reflexivity.
Qed.
Lemma case_bang ts l k : P_pipe ts l k -> P_cmd (K "!" :: ts) (block T_BANG TNull (rnest T_PIPE l)) k true.
Proof.
  intros Hp. split; [reflexivity|]. destruct (run_pipe _ _ _ Hp) as (N & H). exists (S (S N)).
  intros n Ln ct s rest Rd F T. destruct n as [|n]; [lia|]. cbn [parse]. unfold get_command_.
  cbn [app] in Rd. rewrite (Ready_K _ _ _ _ Rd eq_refl eq_refl eq_refl); cbn [bindr]; keys.
  rewrite (H n ltac:(lia) false _ rest); auto using fresh. cbn [bindr]. rewrite (pipe_tree _ _ _ Hp).
  rewrite (redirs_after k rest) by (auto; lia). reflexivity.
Qed.
Lemma str_save_c s : ~ In NUL s -> str_save (s ++ [NUL]) = Some (s ++ [NUL]).
Proof.
  induction s as [|c s IH]; intros H; [reflexivity|]. cbn [app str_save].
  destruct (ceq c NUL) eqn:E; [apply ceq_true in E; subst; exfalso; apply H; left; reflexivity|].
  rewrite IH; [reflexivity|]. intros I. apply H. right; exact I.
Qed.
Lemma case_time ts l k t : P_pipe ts l k -> with_time (rnest T_PIPE l) t -> P_cmd (K "time" :: ts) (block T_TIME t TNull) k true.
Proof.
  intros Hp W. split; [reflexivity|]. destruct (run_pipe _ _ _ Hp) as (N & H). exists (S (S N)).
  intros n Ln ct s rest Rd F T. destruct n as [|n]; [lia|]. cbn [parse]. unfold get_command_.
  cbn [app] in Rd. rewrite (Ready_K _ _ _ _ Rd eq_refl eq_refl eq_refl); cbn [bindr]; keys.
  rewrite (H n ltac:(lia) false _ rest); auto using fresh. cbn [bindr].
  assert (E : timed (rnest T_PIPE l) = Some t).
  { unfold with_time in W. destruct (rnest T_PIPE l) as [|ty f a v io x y [str|] ln]; try contradiction.
    - destruct W as ((s' & -> & I) & ->). cbn [timed]. rewrite (str_save_c _ I). reflexivity.
    - subst t. reflexivity. }
  rewrite E. rewrite (redirs_after k rest) by (auto; lia). reflexivity.
Qed.
Lemma fbody w name (ksh : bool) n : wdstrip w = Some name -> existsb bad_func_char name = false -> forall s t s',
  (if ksh then B (musthave LS lex_list (is_key (L "{")) (fl true true) s) (fun _ (s : pst LS) => okk tt (rej LS s)) else okk tt s) = okk tt s' ->
  forall s'', P n (NCommand true) s' = okk t s'' -> is_null t = false ->
  P (S n) (NFunction w ksh) s = okk (TOp T_FUNCT (if ksh then 1 else 0) None None None t TNull (Some (name ++ [NUL])) 0) s''.
Proof.
  intros W Bc s t s' E s'' E' Nn. cbn [parse]. unfold function_body_. rewrite W, Bc, E. cbn [bindr]. rewrite E'. cbn [bindr].
  rewrite Nn. reflexivity.
Qed.
Lemma case_func w id n0 name ts t k o :
  is_reserved id = false -> is_wdvarassign w = false ->
  wdstrip w = Some name -> existsb bad_func_char name = false -> P_cmd ts t k o ->
  P_cmd (XWord w id :: O "(" :: O ")" :: nls n0 ++ ts)
        (TOp T_FUNCT 0 None None None t TNull (Some (name ++ [NUL])) 0) k o.
Proof.
  intros Nr Na W Bc (Nn & N & H). split; [reflexivity|]. exists (5 + N).
  intros n Ln ct s rest Rd F T. destruct n as [|n]; try lia. cbn [parse]. unfold get_command_. destruct n as [|[|[|n]]]; try lia.
  unfold Ready in Rd. cbn [app lexl] in Rd. rewrite Nr, andb_false_r in Rd. cbn [andb fst snd] in Rd. rewrite Rd. cbn [bindr].
  assert (E : simple_loop LS lex_list hadd posix fkeyword (S (S (S n))) [] [] false []
    (rej LS (PS (O "(" :: O ")" :: (nls n0 ++ ts) ++ rest) false (LWORD w id))) =
    okk (SFun w) (PS (O ")" :: (nls n0 ++ ts) ++ rest) false (CTok "("))).
  { cbn [simple_loop]. unfold tpeek, rej. cbn [reject symbol bindr lx]. rewrite Na, andb_false_r. cbn [app].
    cbn [simple_loop]. reflexivity. }
  rewrite E. cbn [bindr].
  change (musthave LS lex_list (is_op ")") (fl false false) (PS (O ")" :: (nls n0 ++ ts) ++ rest) false (CTok "(")))
    with (okk tt (PS ((nls n0 ++ ts) ++ rest) false (CTok ")"))). cbn [bindr].
  rewrite (fbody w name false (S (S n)) W Bc _ t (PS ((nls n0 ++ ts) ++ rest) false (CTok ")")) eq_refl (after rest)); auto.
  - cbn [bindr]. rewrite (redirs_after k rest) by (auto; lia). reflexivity.
  - apply H; auto; [lia|]. rewrite <- app_assoc. apply fresh_nls. reflexivity.
Qed.
Lemma case_kfunc w id n0 name ts t k o :
  wdstrip w = Some name -> existsb bad_func_char name = false -> P_cmd (K "{" :: ts) t k o ->
  P_cmd (K "function" :: XWord w id :: nls n0 ++ K "{" :: ts)
        (TOp T_FUNCT 1 None None None t TNull (Some (name ++ [NUL])) 0) k o.
Proof.
  intros W Bc (Nn & N & H). split; [reflexivity|]. exists (5 + N).
  intros n Ln ct s rest Rd F T. destruct n as [|n]; try lia. cbn [parse]. unfold get_command_. destruct n as [|n]; try lia.
  cbn [app] in Rd. rewrite (Ready_K _ _ _ _ Rd eq_refl eq_refl eq_refl); cbn [bindr]; keys.
  change (musthave_word LS lex_list (fl false false) (PS (XWord w id :: (nls n0 ++ K "{" :: ts) ++ rest) false (KEY (L "function"))))
    with (okk (w, id) (PS ((nls n0 ++ K "{" :: ts) ++ rest) false (LWORD w id))). cbn [bindr fst].
  rewrite (fbody w name true n W Bc _ t (PS (ts ++ rest) true (KEY (L "{"))) ) with (s'' := after rest); auto.
  - cbn [bindr]. rewrite (redirs_after k rest) by (auto; lia). reflexivity.
  - unfold musthave. rewrite <- app_assoc. cbn [app].
    rewrite (Ready_K _ _ _ _ (fresh_nls (fl true true) n0 (K "{" :: ts ++ rest) _ eq_refl) eq_refl eq_refl eq_refl). reflexivity.
  - apply H; auto; [lia|]. unfold Ready. cbn [app]. rewrite lexl_K by reflexivity. reflexivity.
Qed.

Lemma patterns_ok ps : forall n acc w id s Y sym, length ps < n ->
  musthave_word LS lex_list (fl false false) s = okk (w, id) (PS (pattern_lex ps ++ O ")" :: Y) false sym) ->
  patterns LS lex_list n acc s = okk (acc ++ w :: map fst ps) (PS Y true (CTok ")")).
Proof.
  induction ps as [|[w' id'] ps IH]; intros n acc w id s Y sym Ln E; (destruct n as [|n]; [cbn in Ln; lia|]);
    cbn [patterns]; rewrite E; cbn [bindr].
  - reflexivity.
  - cbn [pattern_lex flat_map app fst snd]. cbn [length] in Ln.
    change (tk (fl false false) (PS (O "|" :: XWord w' id' :: flat_map (fun p => [O "|"; XWord (fst p) (snd p)]) ps ++ O ")" :: Y) false sym))
      with (okk (CTok "|") (PS (XWord w' id' :: pattern_lex ps ++ O ")" :: Y) false (CTok "|"))).
    cbn [bindr is_op]. change (ceq "|" "|") with true. cbv iota.
    rewrite (IH n (acc ++ [w]) w' id' _ Y (LWORD w' id')); [|lia|reflexivity].
    rewrite <- app_assoc. reflexivity.
Qed.
Definition item_start (n0 : nat) (paren : bool) (w id : cstr) (ps : list (cstr * cstr)) (Y : LS) : LS :=
  nls n0 ++ (if paren then [O "("] else []) ++ XWord w id :: pattern_lex ps ++ O ")" :: Y.
(** Up to the commands of an item. *)
Lemma item_ok n0 (paren : bool) w id ps Y s : paren = true \/ (id <> L "esac" /\ id <> L "}") ->
  PReady (fl_kw true true) (item_start n0 paren w id ps Y) s ->
  exists tok rst, pk (fl_kw true true) s = okk tok (PS rst true tok) /\ (forall e, is_key e tok = false) /\
   forall n, length ps < n ->
   patterns LS lex_list n [] (if is_op "(" tok then PS rst false tok else PS rst true tok) =
   okk (w :: map fst ps) (PS Y true (CTok ")")).
Proof.
  intros C R. unfold PReady, item_start in R. rewrite lexl_nls in R by reflexivity.
  destruct paren; cbn [app lexl O] in R.
  - eexists _, _. split; [exact R|]. split; [reflexivity|]. intros n Ln. cbn [is_op fst snd]. change (ceq "(" "(") with true. cbv iota.
    apply (patterns_ok ps n [] w id _ Y (LWORD w id) Ln). reflexivity.
  - destruct C as [C|[C1 C2]]; [discriminate|].
    assert (E : (str_eqb id (L "esac") = false) /\ str_eqb id (L "}") = false).
    { split; [destruct (str_eqb_spec id (L "esac"))|destruct (str_eqb_spec id (L "}"))]; congruence. }
    destruct E as [E1 E2]. rewrite E1, E2, !andb_false_r in R. cbn [fst snd] in R.
    eexists _, _. split; [exact R|]. split; [reflexivity|]. intros n Ln. cbn [is_op].
    apply (patterns_ok ps n [] w id _ Y (LWORD w id) Ln). reflexivity.
Qed.
Lemma K_esac_or e : e = "esac"%string \/ e = "}"%string -> is_reserved (L e) = true /\ closer (L e) = true.
Proof. intros [-> | ->]; split; reflexivity. Qed.
Lemma cases_nil n0 : P_cases (nls n0) TNull.
Proof.
  exists 1. intros n Ln e s rest He R. destruct n as [|n]; [lia|]. cbn [parse]. unfold case_loop_.
  unfold PReady in R. rewrite lexl_nls in R by reflexivity.
  assert (E : lexl (fl_kw true true) (K e :: rest) = (KEY (L e), rest)) by (destruct He as [-> | ->]; reflexivity).
  rewrite E in R. cbn [fst snd] in R. rewrite R. cbn [bindr is_key]. rewrite str_eqb_refl. reflexivity.
Qed.
Lemma cases_item n0 (paren : bool) w id ps ts els k ts' r :
  paren = true \/ (id <> L "esac" /\ id <> L "}") -> P_lst true ts els k -> P_cases ts' r ->
  P_cases (nls n0 ++ (if paren then [O "("] else []) ++ XWord w id :: pattern_lex ps ++ O ")" :: ts ++ XTok BREAK :: ts')
          (TOp T_PAT 0 None (Some (w :: map fst ps)) None (rnest T_LIST els) r None 0).
Proof.
  intros C Hl (N' & H'). destruct (run_lst _ _ _ _ Hl) as (N & H).
  exists (2 + N + N' + S (length ps)). intros n Ln e s rest He R.
  destruct n as [|n]; [lia|]. cbn [parse]. unfold case_loop_.
  assert (R' : PReady (fl_kw true true) (item_start n0 paren w id ps (ts ++ XTok BREAK :: ts' ++ K e :: rest)) s).
  { unfold item_start. revert R. rewrite <- !app_assoc. cbn [app]. rewrite <- !app_assoc. cbn [app].
    rewrite <- !app_assoc. cbn [app]. auto. }
  destruct (item_ok _ _ _ _ _ _ _ C R') as (tok & rst & E1 & E2 & E3).
  rewrite E1. cbn [bindr]. rewrite E2.
  assert (Ei : P n (NCase (L e)) (PS rst true tok) =
    okk (TOp T_PAT 0 None (Some (w :: map fst ps)) None (rnest T_LIST els) TNull None 0) (PS (ts' ++ K e :: rest) false BREAK)).
  { destruct n as [|n]; [lia|]. cbn [parse]. unfold casepart_.
    change (tk (fl_kw true false) (PS rst true tok)) with (okk tok (PS rst false tok)). cbn [bindr].
    change (rej LS (PS rst false tok)) with (PS rst true tok). rewrite E3 by lia. cbn [bindr].
    change (musthave LS lex_list (is_op ")") (fl false false) (PS (ts ++ XTok BREAK :: ts' ++ K e :: rest) true (CTok ")")))
      with (okk tt (PS (ts ++ XTok BREAK :: ts' ++ K e :: rest) false (CTok ")"))). cbn [bindr].
    rewrite H by (auto; lia). reflexivity. }
  rewrite Ei. cbn [bindr].
  rewrite (H' n ltac:(lia) e _ rest He); [|apply pfresh]. reflexivity.
Qed.
Lemma cases_last n0 (paren : bool) w id ps ts els :
  paren = true \/ (id <> L "esac" /\ id <> L "}") -> P_lst true ts els true ->
  P_cases (nls n0 ++ (if paren then [O "("] else []) ++ XWord w id :: pattern_lex ps ++ O ")" :: ts)
          (TOp T_PAT 0 None (Some (w :: map fst ps)) None (rnest T_LIST els) TNull None 0).
Proof.
  intros C Hl. destruct (run_lst _ _ _ _ Hl) as (N & H).
  exists (3 + N + S (length ps)). intros n Ln e s rest He R.
  destruct n as [|n]; [lia|]. cbn [parse]. unfold case_loop_.
  assert (R' : PReady (fl_kw true true) (item_start n0 paren w id ps (ts ++ K e :: rest)) s).
  { unfold item_start. revert R. rewrite <- !app_assoc. cbn [app]. rewrite <- !app_assoc. cbn [app]. auto. }
  destruct (item_ok _ _ _ _ _ _ _ C R') as (tok & rst & E1 & E2 & E3).
  rewrite E1. cbn [bindr]. rewrite E2.
  assert (Ei : P n (NCase (L e)) (PS rst true tok) =
    okk (TOp T_PAT 0 None (Some (w :: map fst ps)) None (rnest T_LIST els) TNull None 0) (PS rest true (KEY (L e)))).
  { destruct n as [|n]; [lia|]. cbn [parse]. unfold casepart_.
    change (tk (fl_kw true false) (PS rst true tok)) with (okk tok (PS rst false tok)). cbn [bindr].
    change (rej LS (PS rst false tok)) with (PS rst true tok). rewrite E3 by lia. cbn [bindr].
    change (musthave LS lex_list (is_op ")") (fl false false) (PS (ts ++ K e :: rest) true (CTok ")")))
      with (okk tt (PS (ts ++ K e :: rest) false (CTok ")"))). cbn [bindr].
    rewrite H; [|lia|destruct He as [-> | ->]; reflexivity]. cbn [bindr].
    rewrite after_K by apply (K_esac_or e He). unfold tpeek. cbn [reject symbol bindr is_key]. rewrite str_eqb_refl. reflexivity. }
  rewrite Ei. cbn [bindr].
  destruct n as [|n]; [lia|]. cbn [parse]. unfold case_loop_, tpeek. cbn [reject symbol bindr is_key]. rewrite str_eqb_refl. reflexivity.
Qed.
Lemma case_case w id n0 (br : bool) ts t rs io :
  P_cases ts t -> redirections rs io -> length io <= NUFILE ->
  P_cmd (K "case" :: XWord w id :: nls n0 ++ K (if br then "{" else "in") :: ts ++ K (if br then "}" else "esac") :: rs)
        (set_io io (TOp T_CASE 0 None None None t TNull (Some w) 0)) true false.
Proof.
  intros (N & H) R Le. split; [reflexivity|]. exists (2 + N + S (length io)).
  intros n Ln ct s rest Rd F _. destruct n as [|n]; [lia|]. cbn [parse]. unfold get_command_.
  cbn [app] in Rd. rewrite (Ready_K _ _ _ _ Rd eq_refl eq_refl eq_refl); cbn [bindr]; keys.
  rewrite <- app_assoc. cbn [app]. rewrite <- app_assoc. cbn [app].
  set (b := if br then "{"%string else "in"%string). set (e := if br then "}"%string else "esac"%string).
  change (musthave_word LS lex_list (fl false false) (PS (XWord w id :: nls n0 ++ K b :: ts ++ K e :: rs ++ rest) false (KEY (L "case"))))
    with (okk (w, id) (PS (nls n0 ++ K b :: ts ++ K e :: rs ++ rest) false (LWORD w id))). cbn [bindr fst].
  assert (He : e = "esac"%string \/ e = "}"%string) by (destruct br; auto).
  assert (E : P n NCases (PS (nls n0 ++ K b :: ts ++ K e :: rs ++ rest) false (LWORD w id)) = okk t (PS (rs ++ rest) false (KEY (L e)))).
  { destruct n as [|n]; [lia|]. cbn [parse]. unfold caselist_.
    assert (Rb : is_reserved (L b) = true) by (destruct br; reflexivity).
    rewrite (Ready_K _ _ _ _ (fresh_nls (fl true true) n0 (K b :: ts ++ K e :: rs ++ rest) _ eq_refl) eq_refl eq_refl Rb).
    cbn [bindr is_key].
    assert (X : str_eqb (L "in") (L b) || str_eqb (L "{") (L b) = true) by (destruct br; reflexivity).
    assert (Y : (if str_eqb (L "in") (L b) then L "esac" else L "}") = L e) by (destruct br; reflexivity).
    rewrite X, Y. rewrite (H n ltac:(lia) e _ (rs ++ rest) He) by apply pfresh. cbn [bindr].
    unfold musthave, token_. cbn [reject symbol lx bindr is_key]. rewrite str_eqb_refl. reflexivity. }
  rewrite E. cbn [bindr]. apply (fin n rs io); auto. lia.
Qed.

(** *** Operators *)
Lemma pipe_one ts t k o : P_cmd ts t k o -> P_pipe ts [t] k.
Proof.
  intros (Nn & N & H). split; [auto|]. split; [discriminate|]. exists (S N).
  intros n Ln acc ct s rest R F T. exists t, (after rest). split; [apply H; auto; lia|]. split; [exact Nn|].
  destruct n as [|n]; [lia|]. cbn [parse]. unfold pipe_loop_. rewrite tk_after. cbn [bindr]. rewrite T. reflexivity.
Qed.
Lemma pipe_cons ts t k n0 ts' l k' : P_cmd ts t k false -> P_pipe ts' l k' ->
  P_pipe (ts ++ O "|" :: nls n0 ++ ts') (t :: l) k'.
Proof.
  intros (Nn & N & H) (Fl & Ne & N' & H'). split; [auto|]. split; [discriminate|]. exists (S N + N').
  intros n Ln acc ct s rest R F T. rewrite <- app_assoc in R. cbn [app] in R. rewrite <- app_assoc in R.
  exists t, (after (O "|" :: nls n0 ++ ts' ++ rest)).
  split; [apply H; auto; try lia; discriminate|]. split; [exact Nn|].
  destruct n as [|n]; [lia|]. cbn [parse]. unfold pipe_loop_. rewrite tk_after. cbn [bindr].
  change (tokof (O "|" :: nls n0 ++ ts' ++ rest)) with (CTok "|"). cbn [is_op]. change (ceq "|" "|") with true. cbv iota.
  change (snd (lexl kwf (O "|" :: nls n0 ++ ts' ++ rest))) with (nls n0 ++ ts' ++ rest).
  destruct (H' n ltac:(lia) (acc ++ [t]) true (PS (nls n0 ++ ts' ++ rest) false (CTok "|")) rest) as (p & s' & E1 & E2 & E3); auto.
  { apply fresh_nls. reflexivity. }
  rewrite E1. cbn [bindr]. rewrite E2, graft_rnest. rewrite app_length in E3. cbn [length] in E3.
  rewrite Nat.add_1_r, <- !app_assoc in E3. exact E3.
Qed.
Lemma andors_pipe ts l k : P_pipe ts l k -> P_andors ts (rnest T_PIPE l) k.
Proof.
  intros Hp. split; [apply (pipe_tree _ _ _ Hp)|]. destruct (run_pipe _ _ _ Hp) as (N & H).
  exists N, 1. intros n Ln s rest R F T. cbn [Nat.add parse]. unfold andor_.
  rewrite (H n Ln false s rest) by auto. cbn [bindr]. rewrite (pipe_tree _ _ _ Hp). reflexivity.
Qed.
Lemma andors_op (a : bool) ts t k n0 ts' l k' : P_andors ts t k -> P_pipe ts' l k' ->
  P_andors (ts ++ XTok (if a then LOGAND else LOGOR) :: nls n0 ++ ts') (block (if a then T_AND else T_OR) t (rnest T_PIPE l)) k'.
Proof.
  intros (Nn & N & d & H) Hp. split; [destruct a; reflexivity|]. destruct (run_pipe _ _ _ Hp) as (N' & H').
  exists (N + N'), (S d). intros n Ln s rest R F T.
  rewrite <- app_assoc in R. cbn [app] in R. rewrite <- app_assoc in R.
  replace (S d + n) with (d + S n) by lia.
  rewrite (H (S n) ltac:(lia) s (XTok (if a then LOGAND else LOGOR) :: nls n0 ++ ts' ++ rest) R) by (destruct a; reflexivity).
  cbn [parse]. unfold andor_loop_. rewrite tk_after.
  assert (E : tokof (XTok (if a then LOGAND else LOGOR) :: nls n0 ++ ts' ++ rest) = if a then LOGAND else LOGOR) by reflexivity.
  rewrite E. change (snd (lexl kwf (XTok (if a then LOGAND else LOGOR) :: nls n0 ++ ts' ++ rest))) with (nls n0 ++ ts' ++ rest).
  cbn [bindr].
  destruct a; rewrite (H' n ltac:(lia) true _ rest) by (auto using fresh_nls); cbn [bindr]; rewrite (pipe_tree _ _ _ Hp); reflexivity.
Qed.

(** *** Lists *)
Lemma lst_nil m : P_lst m [] [] true.
Proof.
  split; [auto|]. exists 5. intros n Ln acc s rest A R C. rewrite app_nil_r.
  destruct n as [|n]; [lia|]. cbn [parse]. unfold list_loop_.
  assert (E : P n NAndor s = okk TNull (after rest)).
  { destruct n as [|n]; [lia|]. cbn [parse]. unfold andor_.
    destruct n as [|n]; [lia|]. cbn [parse]. unfold pipeline_.
    destruct n as [|n]; [lia|]. rewrite (gc_null m true rest n s C R). reflexivity. }
  rewrite E. cbn [bindr]. rewrite tk_after. cbn [bindr is_null].
  pose proof (closes_tok _ _ _ C) as T.
  assert (X : is_op NL (tokof rest) && (m || inal (lx LS (PS (snd (lexl kwf rest)) false (tokof rest)))) = false).
  { unfold inal. destruct T as [T|[(T & ->)|[T|[T|(id & T & _)]]]]; rewrite T; reflexivity. }
  rewrite X. reflexivity.
Qed.
Lemma lst_blank ts els k : P_lst true ts els k -> P_lst true (XNl :: ts) els k.
Proof.
  intros (Fe & N & H). split; [auto|]. exists (5 + N). intros n Ln acc s rest A R C.
  destruct n as [|n]; [lia|]. cbn [parse]. unfold list_loop_.
  assert (E : P n NAndor s = okk TNull (PS (ts ++ rest) true (CTok NL))).
  { destruct n as [|n]; [lia|]. cbn [parse]. unfold andor_.
    destruct n as [|n]; [lia|]. cbn [parse]. unfold pipeline_.
    destruct n as [|n]; [lia|]. cbn [parse]. unfold get_command_.
    unfold Ready in R. cbn [app lexl fl_cmd contin fst snd] in R. rewrite R. reflexivity. }
  rewrite E. cbn [bindr]. unfold token_. cbn [reject symbol lx bindr is_op]. change (ceq NL NL) with true. cbn [andb orb is_null].
  apply H; auto; [lia|]. apply fresh.
Qed.
Lemma rnest_snoc acc p : Forall nonnull acc ->
  (if is_null (rnest T_LIST acc) then p else graft T_LIST (pred (length acc)) (rnest T_LIST acc) p) = rnest T_LIST (acc ++ [p])
  /\ (if is_null (rnest T_LIST acc) then 0 else S (pred (length acc))) = pred (length (acc ++ [p])).
Proof.
  intros A. rewrite rnest_null by exact A. rewrite app_length. cbn [length].
  destruct acc as [|x acc] using rev_ind; [auto|]. clear IHacc.
  replace (null (acc ++ [x])) with false by (destruct acc; reflexivity).
  rewrite app_length. cbn [length]. rewrite Nat.add_1_r. cbn [pred]. rewrite graft_rnest, <- app_assoc. split; [reflexivity|lia].
Qed.
(** Reading one element of a list: up to the token after it. *)
Lemma one_element ts t k : P_andors ts t k -> exists N, forall n, N <= n -> forall s rest,
  Ready (fl_cmd false) (ts ++ rest) s -> follow k rest = true -> is_op "|" (tokof rest) = false ->
  (tokof rest <> LOGAND /\ tokof rest <> LOGOR) ->
  P n NAndor s = okk t (after rest).
Proof.
  intros (Nn & N & d & H). exists (d + S N). intros n Ln s rest R F T (T1 & T2).
  replace n with (d + S (n - d - 1)) by lia. rewrite (H (S (n - d - 1)) ltac:(lia) s rest R F T).
  cbn [parse]. unfold andor_loop_. rewrite tk_after. cbn [bindr]. rewrite rej_after.
  destruct (tokof rest); try reflexivity; congruence.
Qed.
Lemma lst_last m ts t k : P_andors ts t k -> P_lst m ts [t] k.
Proof.
  intros Ha. split; [constructor; [apply Ha|constructor]|]. destruct (one_element _ _ _ Ha) as (N & H).
  exists (S N). intros n Ln acc s rest A R C. destruct n as [|n]; [lia|]. cbn [parse]. unfold list_loop_.
  pose proof (closes_tok _ _ _ C) as T.
  assert (X : is_op "|" (tokof rest) = false /\ (tokof rest <> LOGAND /\ tokof rest <> LOGOR) /\
     is_op NL (tokof rest) && (m || false) = false /\ is_op "&" (tokof rest) = false /\ tokof rest <> COPROC /\ is_op ";" (tokof rest) = false).
  { destruct T as [T|[(T & ->)|[T|[T|(id & T & _)]]]]; rewrite T; cbn; repeat split; auto; discriminate. }
  destruct X as (X1 & X2 & X3 & X4 & X5 & X6).
  rewrite (H n ltac:(lia) s rest R (closes_follow _ _ _ C) X1 X2). cbn [bindr]. rewrite tk_after. cbn [bindr].
  unfold inal. rewrite X3, X4, X6. rewrite (proj1 Ha). rewrite (proj1 (rnest_snoc acc t A)), rej_after.
  destruct (tokof rest); try reflexivity; congruence.
Qed.
Lemma lst_sep m ts t k s w ts' els k' : P_andors ts t k -> sep m s w -> P_lst m ts' els k' ->
  P_lst m (ts ++ s :: ts') (w t :: els) k'.
Proof.
  intros Ha Sp (Fe & N' & H'). destruct (one_element _ _ _ Ha) as (N & H).
  assert (Nw : nonnull (w t)) by (destruct Sp; try reflexivity; apply Ha).
  split; [auto|]. exists (S N + N'). intros n Ln acc st rest A R C. destruct n as [|n]; [lia|]. cbn [parse]. unfold list_loop_.
  rewrite <- app_assoc in R. cbn [app] in R.
  assert (X : follow k (s :: ts' ++ rest) = true /\ is_op "|" (tokof (s :: ts' ++ rest)) = false /\
              (tokof (s :: ts' ++ rest) <> LOGAND /\ tokof (s :: ts' ++ rest) <> LOGOR)).
  { destruct Sp; repeat split; try reflexivity; discriminate. }
  destruct X as (X1 & X2 & X3).
  rewrite (H n ltac:(lia) st _ R X1 X2 X3). cbn [bindr]. rewrite tk_after. cbn [bindr].
  pose proof (proj1 Ha) as Nn. unfold nonnull in Nn.
  assert (E : forall sym, P n (NListLoop m (rnest T_LIST (acc ++ [w t])) (pred (length (acc ++ [w t])))) (PS (ts' ++ rest) false sym)
      = okk (rnest T_LIST (acc ++ w t :: els)) (after rest)).
  { intros sym. rewrite (H' n ltac:(lia) (acc ++ [w t]) _ rest); auto using fresh.
    - rewrite <- app_assoc. reflexivity.
    - apply Forall_app. auto. }
  destruct Sp; unfold inal; rewrite Nn.
  - change (tokof (O ";" :: ts' ++ rest)) with (CTok ";"). cbn -[parse rnest length graft].
    rewrite (proj1 (rnest_snoc acc t A)), (proj2 (rnest_snoc acc t A)). apply E.
  - change (tokof (XNl :: ts' ++ rest)) with (CTok NL). cbn -[parse rnest length graft].
    rewrite (proj1 (rnest_snoc acc t A)), (proj2 (rnest_snoc acc t A)). apply E.
  - change (tokof (O "&" :: ts' ++ rest)) with (CTok "&"). cbn -[parse rnest length graft block].
    rewrite (proj1 (rnest_snoc acc (block T_ASYNC t TNull) A)), (proj2 (rnest_snoc acc (block T_ASYNC t TNull) A)). apply E.
  - change (tokof (XTok COPROC :: ts' ++ rest)) with COPROC. cbn -[parse rnest length graft block].
    rewrite (proj1 (rnest_snoc acc (block T_COPROC t TNull) A)), (proj2 (rnest_snoc acc (block T_COPROC t TNull) A)). apply E.
Qed.

(** *** Everything *)
Scheme cmd_i := Minimality for cmd Sort Prop
  with pipe_i := Minimality for pipe Sort Prop
  with andors_i := Minimality for andors Sort Prop
  with lst_i := Minimality for lst Sort Prop
  with dog_i := Minimality for dog Sort Prop
  with thn_i := Minimality for thn Sort Prop
  with els_i := Minimality for els_ Sort Prop
  with cases_i := Minimality for cases Sort Prop.
Lemma lst_parses m ts els k : lst posix fkeyword m ts els k -> P_lst m ts els k.
Proof.
  apply (lst_i posix fkeyword P_cmd P_pipe P_andors P_lst (fun ts t => dog posix fkeyword ts t /\ P_dog ts t)
     (fun ts t => thn posix fkeyword ts t /\ P_thn ts t) P_els P_cases); intros.
  - apply case_simple; auto.
  - eapply case_sub; eauto.
  - eapply case_rsub; eauto.
  - eapply case_brace; eauto.
  - eapply case_let; eauto.
  - destruct H2. eapply case_for; eauto.
  - eapply case_while; eauto.
  - eapply case_case; eauto.
  - destruct H2. eapply case_if; eauto.
  - eapply case_bang; eauto.
  - eapply case_time; eauto.
  - eapply case_func; eauto.
  - eapply case_kfunc; eauto.
  - eapply pipe_one; eauto.
  - eapply pipe_cons; eauto.
  - eapply andors_pipe; eauto.
  - eapply (andors_op true); eauto.
  - eapply (andors_op false); eauto.
  - apply lst_nil.
  - apply lst_blank; auto.
  - apply lst_last; auto.
  - eapply lst_sep; eauto.
  - split; [constructor; auto|apply dog_do; auto].
  - split; [constructor; auto|apply dog_brace; auto].
  - split; [econstructor; eauto|eapply case_then; eauto].
  - apply case_noelse.
  - apply case_else; auto.
  - destruct H2. eapply case_elif; eauto.
  - apply cases_nil.
  - eapply cases_item; eauto.
  - eapply cases_last; eauto.
Qed.
End P.
