(** Simulation of expand() by the items of a word, and the fields they give. *)
From Verif Require Import Base Num_model SimplifyPath_model Glob_model Glob_proof Trim_model Word_model Expand_model Expand_spec.
Local Open Scope Z_scope.

(** * The items, with the states of the code *)
Record ist := I { iw : wstate; icur : list tok; idone : list (list tok) }.
Definition ws_after (w : wstate) (c : char) : wstate := match w with NWS => NWS | _ => if c_ifsws c then WS else NWS end.
Definition iflush (s : ist) : ist := I (iw s) [] (idone s ++ [icur s]).
Definition isep (s : ist) (c : char) : ist :=
  let s := if match iw s with WORD | QUOTE => true | IWS | NWS => negb (c_ifsws c) | WS => false end then iflush s else s in
  I (ws_after (iw s) c) (icur s) (idone s).
Definition istep (bl : bool) (s : ist) (i : item) : ist :=
  match i with
  | Txt first t => I WORD (icur s ++ [t]) (idone s ++ match first, iw s, icur s with true, NWS, [] => [[]] | _, _, _ => [] end)
  | Sep c => isep s c
  | Quo => I (match iw s with QUOTE | WORD => WORD | _ => QUOTE end) (icur s) (idone s)
  | Unq => s
  | Full => I WORD (icur s) (idone s)
  | Begin => I (match iw s with QUOTE => WORD | w => w end) (icur s) (idone s)
  | Null => if bl then match icur s, iw s with [], WORD => s | [], _ => I IWS [] (idone s) | _, _ => s end else s
  | Alt => match icur s with [] => I IWS [] (idone s) | _ => s end
  | Args [] => s
  | Args (a :: l) => let all := (icur s ++ a) :: l in I WORD (last all []) (idone s ++ removelast all)
  | Brk => match iw s with WS => s | _ => let s := iflush s in I (ws_after (iw s) SP) (icur s) (idone s) end
  end.
Definition irun (bl : bool) (s : ist) (its : list item) : ist := fold_left (istep bl) its s.
Definition ifinish (s : ist) : list (list tok) := idone s ++ match iw s with WORD | QUOTE => [icur s] | _ => [] end.
Lemma irun_app bl s a b : irun bl s (a ++ b) = irun bl (irun bl s a) b.
Proof. apply fold_left_app. Qed.

(** * Tokens and bytes *)
Lemma emit_seen p b seen t : snd (emit p b seen t) = seen || match t with TU c => b && ceq c "{" | _ => false end.
Proof.
  destruct t; cbn [emit snd]; try (now rewrite orb_false_r).
  apply eqb_prop. revert c. apply (char_sweep (fun c => Bool.eqb (snd (emit p b seen (TU c))) (seen || b && ceq c "{"))).
  destruct p, b, seen; vm_compute; reflexivity.
Qed.
Lemma emits_app p b ts seen t : emits p b seen (ts ++ [t]) = emits p b seen ts ++ fst (emit p b (seen || brace_seen b ts) t).
Proof.
  revert seen. induction ts as [|x ts IH]; intros seen; cbn [app emits brace_seen existsb].
  - rewrite orb_false_r. destruct (emit p b seen t) as [a s]. cbn. now rewrite app_nil_r.
  - pose proof (emit_seen p b seen x) as S1. destruct (emit p b seen x) as [a s]. cbn [snd] in S1. subst s.
    rewrite IH, <- app_assoc. do 3 f_equal. unfold brace_seen. now rewrite orb_assoc.
Qed.
Lemma emit_ne p b seen t : fst (emit p b seen t) <> [].
Proof.
  destruct t; cbn; try discriminate; repeat match goal with |- context [if ?x then _ else _] => destruct x end; cbn; discriminate.
Qed.
Lemma emits_nil p b ts : emits p b false ts = [] -> ts = [].
Proof.
  destruct ts as [|t ts]; auto. cbn. pose proof (emit_ne p b false t) as H. destruct (emit p b false t) as [[|c a] s]; [now destruct H|discriminate].
Qed.
Lemma existsb_snoc A (g : A -> bool) l x : existsb g (l ++ [x]) = existsb g l || g x.
Proof. rewrite existsb_app. cbn. now rewrite orb_false_r. Qed.

(** * The machine *)
Section Sim.
Variable E : Type.
Variable y : sys E.
Hypothesis Y : sys_ok y.
Variable fl : flags.
Hypothesis Hdont : dont fl = false.
Notation bl := (blank fl).
Notation gp := (pat fl || glob fl).

Inductive reach : st E -> st E -> Prop :=
| r_refl m : reach m m
| r_step m m1 m2 : step E y m = Next E m1 -> reach m1 m2 -> reach m m2.
Lemma reach_trans a b c : reach a b -> reach b c -> reach a c.
Proof. induction 1; auto. intros. econstructor; eauto. Qed.
Lemma reach_run a b : reach a b -> exists n, forall k, run E y (n + k) a = run E y k b.
Proof.
  induction 1 as [m|m m1 m2 HS _ [n IH]]; [now exists O|]. exists (S n). intros k. cbn. now rewrite HS.
Qed.

(** the flags in an alternative differ in what concerns tildes *)
Definition same (g : flags) : Prop :=
  blank g = blank fl /\ glob g = glob fl /\ pat g = pat fl /\ dont g = false /\ brace g = brace fl /\ markd g = markd fl.
Record view (m : st E) (s : ist) : Prop := {
  v_word : word E m = iw s;
  v_dp : dp E m = emits gp (brace fl) false (icur s);
  v_brace : fbrace E m = brace_seen (brace fl) (icur s);
  v_glob : fglob E m = glob fl && existsb is_glob_tok (icur s);
  v_magic : fmagic E m = existsb (magic_tok gp) (icur s) || brace_seen (brace fl) (icur s);
  v_outs : outs E m = map (raw_of fl) (idone s) }.
(** everything else, tildes excepted *)
Record ctx (m : st E) (e : E) (w : cstr) (t : source) (q : bool) (db : Z) (g : flags) (k : list sub) : Prop := {
  x_env : env E m = e; x_sp : sp E m = w; x_ty : ty E m = t; x_quote : quote E m = q; x_db : doblank E m = db;
  x_f : f E m = g; x_stk : stk E m = k }.

Lemma clsA c : mem c (L "[!-]") = true -> mem c (L "[!-]*?") = true /\ mem c (L "[*?") = ceq c "[" /\ ceq c "{" = false /\ ismagic c = false.
Proof.
  intros H. assert (X : mem c (L "[!-]*?") && Bool.eqb (mem c (L "[*?")) (ceq c "[") && negb (ceq c "{") && negb (ismagic c) = true)
    by (revert c H; apply sweep_imp; vm_compute; reflexivity).
  repeat (apply andb_prop in X; destruct X as [X ?]). repeat split; auto; try (now apply negb_true_iff). now apply eqb_prop.
Qed.
Lemma clsB c : mem c (L "*?") = true -> mem c (L "[!-]") = false /\ mem c (L "[!-]*?") = true /\ mem c (L "[*?") = true /\ ceq c "{" = false /\ ismagic c = false.
Proof.
  intros H. assert (X : negb (mem c (L "[!-]")) && mem c (L "[!-]*?") && (mem c (L "[*?")) && negb (ceq c "{") && negb (ismagic c) = true)
    by (revert c H; apply sweep_imp; vm_compute; reflexivity).
  repeat (apply andb_prop in X; destruct X as [X ?]). repeat split; auto; try (now apply negb_true_iff).
Qed.
Lemma clsC c : mem c (L "{,}") = true -> mem c (L "[!-]*?") = false /\ mem c (L "[*?") = false /\ ismagic c = false.
Proof.
  intros H. assert (X : negb (mem c (L "[!-]*?")) && negb (mem c (L "[*?")) && negb (ismagic c) = true)
    by (revert c H; apply sweep_imp; vm_compute; reflexivity).
  repeat (apply andb_prop in X; destruct X as [X ?]). repeat split; auto; try (now apply negb_true_iff).
Qed.
Lemma clsD c : mem c (L "[!-]") = false -> mem c (L "*?") = false -> mem c (L "{,}") = false ->
  mem c (L "[!-]*?") = false /\ mem c (L "[*?") = false /\ ceq c "{" = false.
Proof.
  intros H1 H2 H3. assert (H : negb (mem c (L "[!-]")) && negb (mem c (L "*?")) && negb (mem c (L "{,}")) = true) by (now rewrite H1, H2, H3).
  assert (X : negb (mem c (L "[!-]*?")) && negb (mem c (L "[*?")) && negb (ceq c "{") = true)
    by (clear H1 H2 H3; revert c H; apply sweep_imp; vm_compute; reflexivity).
  repeat (apply andb_prop in X; destruct X as [X ?]). repeat split; auto; try (now apply negb_true_iff).
Qed.

Definition moved (t : source) : source := match t with XSUB false s => XSUB true s | t => t end.
Definition is_first (t : source) : bool := match t with XSUB false _ => true | _ => false end.
(** the bytes put for a token *)
Definition tok_call (t : tok) : char * bool * bool :=
  match t with
  | TQ c => (c, true, false) | TU c => (c, false, false)
  | TOpen c => (hi_of c, false, true) | TBar => ("|"%char, false, true) | TClose => (")"%char, false, true)
  end.
Definition calls (t : tok) (c : char) (q magic : bool) : Prop :=
  match t with
  | TQ x => c = x /\ q = true /\ magic = false
  | TU x => c = x /\ q = false /\ magic = false
  | TOpen x => mem x (L "*+?@!") = true /\ c = hi_of x /\ magic = true
  | TBar => c = "|"%char /\ magic = true
  | TClose => c = ")"%char /\ magic = true
  end.

Lemma first_ok m s e w t q db g k : same (f E m) -> ctx m e w t q db g k -> view m s ->
  let m1 := match ty E m with
           | XSUB false s =>
             let m := match word E m, dp E m with NWS, [] => set_outs E m (outs E m ++ [Raw false false false (pat (f E m)) (markd (f E m)) []]) | _, _ => m end in
             set_ty E m (XSUB true s)
           | _ => m end in
  ctx m1 e w (moved t) q db g k /\
  view m1 (I (iw s) (icur s) (idone s ++ match is_first t, iw s, icur s with true, NWS, [] => [[]] | _, _, _ => [] end)) /\ saw_eq E m1 = saw_eq E m /\ tok1 E m1 = tok1 E m.
Proof.
  intros F [X1 X2 X3 X4 X5 X6 X7] [V1 V2 V3 V4 V5 V6]. cbv zeta. rewrite X3. destruct F as (F1 & F2 & F3 & F4 & F5 & F6).
  destruct s as [wd cur dn]. cbn [iw icur idone] in *.
  assert (D : match cur with [] => dp E m = [] | _ => dp E m <> [] end).
  { rewrite V2. destruct cur as [|a cur]; [reflexivity|]. intros Q. apply emits_nil in Q. discriminate. }
  destruct t as [|mid v| | |]; try destruct mid; cbn [is_first moved];
    try (split; [constructor; auto|split; [constructor; cbn; rewrite ?app_nil_r; auto|auto]]; fail).
  rewrite V1.
  assert (N : forall m1, (m1 = m) -> ctx (set_ty E m1 (XSUB true v)) e w (XSUB true v) q db g k /\
     view (set_ty E m1 (XSUB true v)) (I wd cur (dn ++ [])) /\ saw_eq E (set_ty E m1 (XSUB true v)) = saw_eq E m /\ tok1 E (set_ty E m1 (XSUB true v)) = tok1 E m).
  { intros m1 ->. split; [constructor; auto|split; [constructor; cbn; rewrite ?app_nil_r; auto|auto]]. }
  destruct wd; try (apply N; destruct (dp E m); reflexivity).
  destruct cur as [|a cur].
  - rewrite D. split; [constructor; auto|split; [constructor; cbn; auto|auto]].
    rewrite V6, map_app. cbn. unfold raw_of. cbn. rewrite andb_false_r. now rewrite F3, F6.
  - destruct (dp E m); [now destruct D|]. now apply N.
Qed.

Lemma put_ok m s e w t q db g k tk c q' magic :
  ctx m e w t q db g k -> same g -> view m s -> calls tk c q' magic ->
  (t = XBASE -> tk <> TU "~"%char) ->
  exists m', put E y m c q' magic = Next E m' /\ ctx m' e w (moved t) q db g k /\ view m' (istep bl s (Txt (is_first t) tk)).
Proof.
  intros X F V C NT. unfold put.
  assert (Fm : same (f E m)) by (rewrite (x_f _ _ _ _ _ _ _ _ X); exact F).
  destruct (first_ok m s e w t q db g k Fm X V) as (X1 & V1 & _). cbv zeta in X1, V1.
  set (m1 := match ty E m with XSUB false s0 => _ | _ => m end) in *. clearbody m1. clear X V m Fm.
  set (d := idone s ++ _) in V1. 
  destruct F as (F1 & F2 & F3 & F4 & F5 & F6). 
  destruct X1 as [A1 A2 A3 A4 A5 A6 A7], V1 as [B1 B2 B3 B4 B5 B6]. cbn [iw icur idone] in *.
  destruct s as [wd cur dn]. cbn [iw icur idone istep] in *. fold d.
  destruct m1 as [me ms mt mq md mb mg mm mw mdb mst msq t1 t2 mf mo]. cbn [env sp ty quote dp fbrace fglob fmagic word doblank stk f outs] in *. subst.
  cbv zeta.
  assert (OK : forall b1 g1 mg1 dd sq u1 u2,
    b1 = brace_seen (brace fl) (cur ++ [tk]) -> g1 = glob fl && existsb is_glob_tok (cur ++ [tk]) ->
    mg1 = existsb (magic_tok gp) (cur ++ [tk]) || brace_seen (brace fl) (cur ++ [tk]) ->
    dd = emits gp (brace fl) false cur ++ fst (emit gp (brace fl) (brace_seen (brace fl) cur) tk) ->
    let m' := St E e w (moved t) q dd b1 g1 mg1 WORD db k sq u1 u2 g (map (raw_of fl) d) in
    ctx m' e w (moved t) q db g k /\ view m' (I WORD (cur ++ [tk]) d)).
  { intros * -> -> -> ->. split; constructor; cbn; auto. now rewrite emits_app. }
  destruct tk as [x|x|x| |]; cbn [calls] in C.
  - destruct C as (-> & -> & ->).
    cbn [set_til set_dp set_fdo set_word dp fbrace fglob fmagic f saw_eq tok1 tok2 ty env sp quote word doblank stk outs].
    destruct (ismagic x) eqn:M; eexists; (split; [reflexivity|]); apply OK;
      unfold brace_seen; rewrite ?existsb_snoc; cbn [emit fst is_glob_tok magic_tok]; rewrite ?M, ?orb_false_r; auto.
    now rewrite orb_true_r.
  - destruct C as (-> & -> & ->).
    assert (Hp : pat g || glob g = gp) by (now rewrite F3, F2).
    cbn [set_til set_dp set_fdo set_word dp fbrace fglob fmagic f saw_eq tok1 tok2 ty env sp quote word doblank stk outs].
    destruct (mem x (L "[!-]")) eqn:CA; [|destruct (mem x (L "*?")) eqn:CB; [|destruct (mem x (L "{,}")) eqn:CC]].
    + destruct (clsA x CA) as (H1 & H2 & H3 & H4). rewrite Hp, H4, F2. destruct gp eqn:G;
      cbn [set_til set_dp set_fdo set_word dp fbrace fglob fmagic f saw_eq tok1 tok2 ty env sp quote word doblank stk outs]; rewrite ?H4;
      eexists; (split; [reflexivity|]); apply OK;
      unfold brace_seen; rewrite ?existsb_snoc; cbn [emit fst is_glob_tok magic_tok]; rewrite ?H1, ?H2, ?H3, ?H4, ?andb_false_r, ?orb_false_r; auto.
      * destruct (glob fl), (ceq x "["); cbn; rewrite ?orb_true_r, ?orb_false_r; reflexivity.
      * now rewrite orb_true_r.
      * now rewrite <- app_assoc.
      * apply orb_false_iff in G as [_ ->]. reflexivity.
    + destruct (clsB x CB) as (H0 & H1 & H2 & H3 & H4). rewrite Hp, F2. destruct gp eqn:G;
      cbn [set_til set_dp set_fdo set_word dp fbrace fglob fmagic f saw_eq tok1 tok2 ty env sp quote word doblank stk outs]; rewrite ?H4;
      eexists; (split; [reflexivity|]); apply OK;
      unfold brace_seen; rewrite ?existsb_snoc; cbn [emit fst is_glob_tok magic_tok]; rewrite ?H1, ?H2, ?H3, ?H4, ?andb_false_r, ?orb_false_r; auto.
      * destruct (glob fl); cbn; rewrite ?orb_true_r, ?orb_false_r; reflexivity.
      * now rewrite orb_true_r.
      * now rewrite <- app_assoc.
      * apply orb_false_iff in G as [_ ->]. reflexivity.
    + destruct (clsC x CC) as (H1 & H2 & H4). rewrite F5. destruct (brace fl && (ceq x "{" || brace_seen (brace fl) cur)) eqn:G;
      cbn [set_til set_dp set_fdo set_word dp fbrace fglob fmagic f saw_eq tok1 tok2 ty env sp quote word doblank stk outs]; rewrite ?H4;
      eexists; (split; [reflexivity|]); apply OK;
      unfold brace_seen; rewrite ?existsb_snoc; cbn [emit fst is_glob_tok magic_tok]; rewrite ?H1, ?H2, ?H4, ?CC, ?andb_false_r, ?orb_false_r; auto.
      * apply andb_true_iff in G as [G1 G2]. rewrite G1 in *. unfold brace_seen in G2. cbn [andb] in *. destruct (ceq x "{"); cbn in G2; rewrite ?orb_true_r, ?orb_false_r; auto.
      * apply andb_true_iff in G as [G1 G2]. rewrite G1 in *. unfold brace_seen in G2. cbn [andb] in *. destruct (ceq x "{"); cbn in G2; rewrite ?orb_true_r, ?orb_false_r; auto. rewrite G2. now rewrite orb_true_r.
      * change (existsb (fun t0 : tok => match t0 with TU c => brace fl && ceq c "{" | _ => false end) cur) with (brace_seen (brace fl) cur). rewrite G. cbn. now rewrite <- app_assoc.
      * unfold brace_seen in G. destruct (brace fl); cbn [andb] in *; [|now rewrite orb_false_r]. apply orb_false_iff in G as [G1 G2]. now rewrite G1, orb_false_r.
      * unfold brace_seen in G. destruct (brace fl); cbn [andb] in *; [|now rewrite ?orb_false_r]. apply orb_false_iff in G as [G1 G2]. now rewrite G1, ?orb_false_r.
      * change (existsb (fun t0 : tok => match t0 with TU c => brace fl && ceq c "{" | _ => false end) cur) with (brace_seen (brace fl) cur). now rewrite G.
    + destruct (clsD x CA CB CC) as (H1 & H2 & H3).
      assert (OK2 : forall sq u1 u2, exists m',
        (let m2 := if ismagic x then set_dp E (set_fdo E (St E e w (moved t) q (emits gp (brace fl) false cur) (brace_seen (brace fl) cur) (glob fl && existsb is_glob_tok cur) (existsb (magic_tok gp) cur || brace_seen (brace fl) cur) wd db k sq u1 u2 g (map (raw_of fl) d)) (brace_seen (brace fl) cur) (glob fl && existsb is_glob_tok cur) true) (emits gp (brace fl) false cur ++ [MAGIC; x])
         else set_dp E (St E e w (moved t) q (emits gp (brace fl) false cur) (brace_seen (brace fl) cur) (glob fl && existsb is_glob_tok cur) (existsb (magic_tok gp) cur || brace_seen (brace fl) cur) wd db k sq u1 u2 g (map (raw_of fl) d)) (emits gp (brace fl) false cur ++ [x]) in
         Next E (set_word E m2 WORD)) = Next E m' /\ ctx m' e w (moved t) q db g k /\ view m' (I WORD (cur ++ [TU x]) d)).
      { intros sq u1 u2. destruct (ismagic x) eqn:M; eexists; (split; [reflexivity|]); apply OK;
          unfold brace_seen; rewrite ?existsb_snoc; cbn [emit fst is_glob_tok magic_tok]; rewrite ?H1, ?H2, ?H3, ?CC, ?M, ?andb_false_r, ?orb_false_r; auto.
        now rewrite orb_true_r. }
      destruct (ceq x "=") eqn:C1; [destruct (negb (temp g) && negb msq); apply OK2|].
      destruct (ceq x ":") eqn:C2; [destruct (negb (temp g) && asn g); apply OK2|].
      destruct (ceq x "~") eqn:C3; [|apply OK2].
      apply ceq_true in C3. subst x. destruct t as [|mid ?| | |]; cbn [moved]; try apply OK2.
      * now destruct (NT eq_refl).
      * destruct mid; cbn [moved]; apply OK2.
  - destruct C as (HC & -> & ->).
    assert (HX : mem (hi_of x) (L "[!-]") || mem (hi_of x) (L "*?") || mem (hi_of x) (L "{,}") || ceq (hi_of x) "=" || ceq (hi_of x) ":" || ceq (hi_of x) "~" = false).
    { apply negb_true_iff. revert x HC NT OK. intros x HC _ _. revert x HC. apply sweep_imp. vm_compute. reflexivity. }
    apply orb_false_iff in HX as [HX X6]. apply orb_false_iff in HX as [HX X5]. apply orb_false_iff in HX as [HX X4]. apply orb_false_iff in HX as [HX X3]. apply orb_false_iff in HX as [HX X2].
    assert (R : exists m', (if q' then Next E (set_word E (set_dp E (set_fdo E (St E e w (moved t) q (emits gp (brace fl) false cur) (brace_seen (brace fl) cur) (glob fl && existsb is_glob_tok cur) (existsb (magic_tok gp) cur || brace_seen (brace fl) cur) wd db k msq false t1 g (map (raw_of fl) d)) (brace_seen (brace fl) cur) (glob fl && existsb is_glob_tok cur || glob g) true) (emits gp (brace fl) false cur ++ [MAGIC; hi_of x])) WORD)
       else Next E (set_word E (set_dp E (set_fdo E (St E e w (moved t) q (emits gp (brace fl) false cur) (brace_seen (brace fl) cur) (glob fl && existsb is_glob_tok cur) (existsb (magic_tok gp) cur || brace_seen (brace fl) cur) wd db k msq false t1 g (map (raw_of fl) d)) (brace_seen (brace fl) cur) (glob fl && existsb is_glob_tok cur || glob g) true) (emits gp (brace fl) false cur ++ [MAGIC; hi_of x])) WORD)) = Next E m' /\ ctx m' e w (moved t) q db g k /\ view m' (I WORD (cur ++ [TOpen x]) d)).
    { destruct q'; eexists; (split; [reflexivity|]); apply OK; unfold brace_seen; rewrite ?existsb_snoc; cbn [emit fst is_glob_tok magic_tok]; rewrite ?F2, ?andb_false_r, ?orb_false_r, ?orb_true_r; auto;
      destruct (glob fl); cbn; now rewrite ?orb_true_r, ?orb_false_r. }
    destruct q'; [exact R|]. rewrite HX, X2, X3, X4, X5, X6. exact R.
  - destruct C as (-> & ->). destruct q'; eexists; (split; [reflexivity|]); apply OK; unfold brace_seen; rewrite ?existsb_snoc; cbn [emit fst is_glob_tok magic_tok f fglob fbrace fmagic dp set_til]; rewrite ?F2, ?andb_false_r, ?orb_false_r, ?orb_true_r; auto;
      destruct (glob fl); cbn; now rewrite ?orb_true_r, ?orb_false_r.
  - destruct C as (-> & ->). destruct q'; eexists; (split; [reflexivity|]); apply OK; unfold brace_seen; rewrite ?existsb_snoc; cbn [emit fst is_glob_tok magic_tok f fglob fbrace fmagic dp set_til]; rewrite ?F2, ?andb_false_r, ?orb_false_r, ?orb_true_r; auto;
      destruct (glob fl); cbn; now rewrite ?orb_true_r, ?orb_false_r.
Qed.

Ltac ctxs := constructor; cbn [env sp ty quote dp fbrace fglob fmagic word doblank stk f outs saw_eq tok1 tok2 set_env set_sp set_ty set_quote set_dp set_fdo set_word set_doblank set_stk set_til set_f set_outs]; auto.
Lemma flush_ok m s e w t q db g k : ctx m e w t q db g k -> same g -> view m s ->
  ctx (emit_word E m) e w t q db g k /\ view (emit_word E m) (iflush s).
Proof.
  intros [X1 X2 X3 X4 X5 X6 X7] (F1 & F2 & F3 & F4 & F5 & F6) [V1 V2 V3 V4 V5 V6]. unfold emit_word. split; ctxs.
  - cbn. now rewrite andb_false_r.
  - cbn [iflush idone]. rewrite map_app, V6. cbn [map]. unfold raw_of. rewrite V2, V3, V4, V5, X6, F3, F6. reflexivity.
Qed.
Lemma after_ok m s e w t q db g k c : ctx m e w t q db g k -> view m s ->
  ctx (after_split E m c) e w t q db g k /\ view (after_split E m c) (I (ws_after (iw s) c) (icur s) (idone s)).
Proof.
  intros [X1 X2 X3 X4 X5 X6 X7] [V1 V2 V3 V4 V5 V6]. unfold after_split, ws_after. rewrite V1. destruct (iw s) eqn:W; split; ctxs; congruence.
Qed.
Lemma split_ok m s e w t q db g k c : ctx m e w t q db g k -> same g -> view m s -> is_nul c = false ->
  exists m', split_at E m c = Next E m' /\ ctx m' e w t q db g k /\ view m' (istep bl s (Sep c)).
Proof.
  intros X F V N. unfold split_at. rewrite N. eexists. split; [reflexivity|]. cbn [istep]. unfold isep.
  destruct (flush_ok m s e w t q db g k X F V) as [FX FV]. rewrite (v_word _ _ V).
  replace (match iw s with WORD | QUOTE => true | WS => false | _ => negb false && negb (c_ifsws c) end)
    with (match iw s with WORD | QUOTE => true | IWS | NWS => negb (c_ifsws c) | WS => false end) by (destruct (iw s); reflexivity).
  destruct (match iw s with WORD | QUOTE => true | IWS | NWS => negb (c_ifsws c) | WS => false end); apply after_ok; auto.
Qed.
Lemma done_ok m s e w t q db g k : ctx m e w t q db g k -> same g -> view m s ->
  exists m', split_at E m NUL = Done E m' /\ env E m' = e /\ outs E m' = map (raw_of fl) (ifinish s).
Proof.
  intros X F V. unfold split_at. change (is_nul NUL) with true. cbn [negb andb].
  destruct (flush_ok m s e w t q db g k X F V) as [FX FV]. rewrite (v_word _ _ V). eexists. split; [reflexivity|].
  unfold ifinish. destruct (iw s); (split; [apply FX || apply X|]); rewrite ?app_nil_r; try apply V; apply FV.
Qed.

Lemma char_ok m s e w t q db g k c q' magic tk :
  ctx m e w t q db g k -> same g -> view m s -> is_nul c = false -> calls tk c q' magic -> (t = XBASE -> tk <> TU "~"%char) ->
  exists m', char_out E y m c q' magic = Next E m' /\
    (if negb q' && bl && negb (db =? 0) && negb magic && mem c (ifs y e)
     then ctx m' e w t q db g k /\ view m' (istep bl s (Sep c))
     else ctx m' e w (moved t) q db g k /\ view m' (istep bl s (Txt (is_first t) tk))).
Proof.
  intros X F V N C T. unfold char_out. rewrite (x_f _ _ _ _ _ _ _ _ X), (x_db _ _ _ _ _ _ _ _ X), (x_env _ _ _ _ _ _ _ _ X), N. cbn [orb].
  unfold c_ifs. rewrite N. cbn [orb]. destruct F as [F1 F]. rewrite F1.
  destruct (negb q' && bl && negb (db =? 0) && negb magic && mem c (ifs y e)).
  - apply split_ok; auto. split; auto.
  - apply put_ok with (q' := q') (magic := magic); auto. split; auto.
Qed.

(** the characters of a value *)
Definition down_db (db : Z) : Z := if bl then db - 1 else db.
Definition up_db (db : Z) : Z := if bl then db + 1 else db.
Lemma down_ctx m s e w t q db g k : ctx m e w t q db g k -> same g -> view m s ->
  ctx (down E m) e w t q (down_db db) g k /\ view (down E m) s.
Proof.
  intros [X1 X2 X3 X4 X5 X6 X7] (F1 & F) [V1 V2 V3 V4 V5 V6]. unfold down, down_db. rewrite X6, F1. destruct bl; split; ctxs. congruence.
Qed.
Lemma up_ctx m s e w t q db g k : ctx m e w t q db g k -> same g -> view m s ->
  ctx (up E m) e w t q (up_db db) g k /\ view (up E m) s.
Proof.
  intros [X1 X2 X3 X4 X5 X6 X7] (F1 & F) [V1 V2 V3 V4 V5 V6]. unfold up, up_db. rewrite X6, F1. destruct bl; split; ctxs. congruence.
Qed.
Lemma ty_ctx m s e w t t' q db g k : ctx m e w t q db g k -> view m s -> ctx (set_ty E m t') e w t' q db g k /\ view (set_ty E m t') s.
Proof. intros [X1 X2 X3 X4 X5 X6 X7] [V1 V2 V3 V4 V5 V6]. split; ctxs. Qed.
Lemma sp_ctx m s e w t w' q db g k : ctx m e w t q db g k -> view m s -> ctx (set_sp E m w') e w' t q db g k /\ view (set_sp E m w') s.
Proof. intros [X1 X2 X3 X4 X5 X6 X7] [V1 V2 V3 V4 V5 V6]. split; ctxs. Qed.
Lemma env_ctx m s e w t e' q db g k : ctx m e w t q db g k -> view m s -> ctx (set_env E m e') e' w t q db g k /\ view (set_env E m e') s.
Proof. intros [X1 X2 X3 X4 X5 X6 X7] [V1 V2 V3 V4 V5 V6]. split; ctxs. Qed.
Lemma quote_ctx m s e w t q' q db g k : ctx m e w t q db g k -> view m s -> ctx (set_quote E m q') e w t q' db g k /\ view (set_quote E m q') s.
Proof. intros [X1 X2 X3 X4 X5 X6 X7] [V1 V2 V3 V4 V5 V6]. split; ctxs. Qed.
Lemma til_ctx m s e w t a b c q db g k : ctx m e w t q db g k -> view m s -> ctx (set_til E m a b c) e w t q db g k /\ view (set_til E m a b c) s.
Proof. intros [X1 X2 X3 X4 X5 X6 X7] [V1 V2 V3 V4 V5 V6]. split; ctxs. Qed.
Lemma stk_ctx m s e w t k' q db g k : ctx m e w t q db g k -> view m s -> ctx (set_stk E m k') e w t q db g k' /\ view (set_stk E m k') s.
Proof. intros [X1 X2 X3 X4 X5 X6 X7] [V1 V2 V3 V4 V5 V6]. split; ctxs. Qed.
Lemma f_ctx m s e w t g' q db g k : ctx m e w t q db g k -> view m s -> ctx (set_f E m g') e w t q db g' k /\ view (set_f E m g') s.
Proof. intros [X1 X2 X3 X4 X5 X6 X7] [V1 V2 V3 V4 V5 V6]. split; ctxs. Qed.
Lemma word_ctx m s e w t wd q db g k : ctx m e w t q db g k -> view m s -> ctx (set_word E m wd) e w t q db g k /\ view (set_word E m wd) (I wd (icur s) (idone s)).
Proof. intros [X1 X2 X3 X4 X5 X6 X7] [V1 V2 V3 V4 V5 V6]. split; ctxs. Qed.

Definition live (db : Z) : Prop := bl = true -> 0 < db.
Lemma calls_tk q c : calls (tk q c) c q false.
Proof. destruct q; cbn; auto. Qed.
(** one character of a source other than the word *)
Lemma src_char m s e w t q db g k c : ctx m e w t q db g k -> same g -> view m s -> live db -> is_nul c = false -> t <> XBASE ->
  exists m', char_out E y m c q false = Next E m' /\
    (if sep_at y bl q e c then ctx m' e w t q db g k /\ view m' (istep bl s (Sep c))
     else ctx m' e w (moved t) q db g k /\ view m' (istep bl s (Txt (is_first t) (tk q c)))).
Proof.
  intros X F V LV N T. destruct (char_ok m s e w t q db g k c q false (tk q c) X F V N (calls_tk q c)) as (m' & S1 & S2).
  - intros ->. now destruct T.
  - exists m'. split; [exact S1|]. unfold sep_at. unfold live in LV.
    replace (negb q && bl && negb (db =? 0) && negb false && mem c (ifs y e)) with (negb q && bl && mem c (ifs y e)) in S2; [exact S2|].
    destruct bl; [|now rewrite !andb_false_r]. replace (db =? 0) with false by (symmetry; apply Z.eqb_neq; specialize (LV eq_refl); lia).
    cbn [negb]. now rewrite !andb_true_r.
Qed.
Lemma nul_free_cons c r : nul_free (c :: r) = true -> is_nul c = false /\ nul_free r = true.
Proof. cbn. intros H. apply andb_true_iff in H as [H1 H2]. split; auto. now apply negb_true_iff. Qed.

Lemma xsub_ok e w q g k : same g -> forall r mid m s db, ctx m e w (XSUB mid r) q db g k -> view m s -> live db -> nul_free r = true ->
  exists m', reach m m' /\ ctx m' e w XBASE q (down_db db) g k /\ view m' (irun bl s (chars y bl q e (negb mid) r)).
Proof.
  intros F. induction r as [|c r IH]; intros mid m s db X V LV N.
  - destruct (ty_ctx m s e w _ XBASE q db g k X V) as [X1 V1]. destruct (down_ctx _ _ _ _ _ _ _ _ _ X1 F V1) as [X2 V2].
    eexists. split; [eapply r_step; [|apply r_refl]|split; [exact X2|exact V2]].
    unfold step. rewrite (x_ty _ _ _ _ _ _ _ _ X). reflexivity.
  - apply nul_free_cons in N as [N1 N2]. destruct (ty_ctx m s e w _ (XSUB mid r) q db g k X V) as [X1 V1].
    destruct (src_char _ _ _ _ _ _ _ _ _ c X1 F V1 LV N1) as (m1 & S1 & S2); [discriminate|].
    assert (ST : step E y m = Next E m1).
    { unfold step. rewrite (x_ty _ _ _ _ _ _ _ _ X), (x_quote _ _ _ _ _ _ _ _ X). exact S1. }
    cbn [chars]. destruct (sep_at y bl q e c).
    + destruct S2 as [X2 V2]. destruct (IH mid m1 _ db X2 V2 LV N2) as (m2 & R & X3 & V3). exists m2. split; [now apply r_step with m1|]. auto.
    + destruct S2 as [X2 V2]. destruct (IH true m1 (istep bl s (Txt (negb mid) (tk q c))) db) as (m2 & R & X3 & V3); [destruct mid; exact X2|destruct mid; exact V2|exact LV|exact N2|].
      exists m2. split; [now apply r_step with m1|]. auto.
Qed.

(** the output of a command *)
Lemma skip_nl_ok o : forall n, let '(n', o') := skip_nl o n in
  (n <= n')%nat /\ (length o' <= length o)%nat /\
  match o' with
  | [] => printed o = []
  | c :: r => is_nul c = false /\ ceq c NL = false /\ printed o = repeat NL (n' - n) ++ c :: printed r
  end.
Proof.
  induction o as [|c o IH]; intros n; [cbn; auto|]. cbn [skip_nl]. destruct (is_nul c) eqn:N.
  - specialize (IH n). destruct (skip_nl o n) as [n' o']. destruct IH as (A & B & C). split; [auto|]. split; [cbn; lia|].
    assert (P : printed (c :: o) = printed o) by (unfold printed; cbn; now rewrite N). destruct o'; now rewrite P.
  - destruct (ceq c NL) eqn:Q.
    + specialize (IH (S n)). destruct (skip_nl o (S n)) as [n' o']. destruct IH as (A & B & C). split; [lia|]. split; [cbn; lia|].
      assert (P : printed (c :: o) = match printed o with [] => [] | r' => c :: r' end) by (unfold printed; cbn; rewrite N; cbn; now rewrite Q).
      apply ceq_true in Q. subst c. destruct o' as [|x r].
      * now rewrite P, C.
      * destruct C as (C1 & C2 & C3). repeat split; auto. rewrite P, C3. replace (n' - n)%nat with (S (n' - S n)) by lia. cbn [repeat app].
        destruct (repeat NL (n' - S n)); reflexivity.
    + split; [auto|]. split; [cbn; lia|]. repeat split; auto. rewrite Nat.sub_diag. cbn [repeat app].
      unfold printed. cbn. rewrite N. cbn. destruct (drop_nl _); [now rewrite Q|reflexivity].
Qed.
Lemma chars_nl q e n r : chars y bl q e false (repeat NL n ++ r) = repeat (if sep_at y bl q e NL then Sep NL else Txt false (tk q NL)) n ++ chars y bl q e false r.
Proof. induction n as [|n IH]; [reflexivity|]. cbn [repeat app chars]. rewrite IH. now destruct (sep_at y bl q e NL). Qed.
Lemma chars_cons q e c r : chars y bl q e false (c :: r) = (if sep_at y bl q e c then Sep c else Txt false (tk q c)) :: chars y bl q e false r.
Proof. cbn. now destruct (sep_at y bl q e c). Qed.

Lemma src_char' m s e w t q db g k c : ctx m e w t q db g k -> same g -> view m s -> live db -> is_nul c = false -> t <> XBASE -> is_first t = false ->
  exists m', char_out E y m c q false = Next E m' /\ ctx m' e w t q db g k /\ view m' (istep bl s (if sep_at y bl q e c then Sep c else Txt false (tk q c))).
Proof.
  intros X F V LV N T FT. destruct (src_char m s e w t q db g k c X F V LV N T) as (m' & S1 & S2). exists m'. split; [exact S1|].
  assert (MV : moved t = t) by (destruct t as [|[]| | |]; auto; discriminate). rewrite MV, FT in S2. destruct (sep_at y bl q e c); exact S2.
Qed.
Lemma xcom_nl e w q g k o : same g -> forall nl m s db, ctx m e w (XCOM nl o) q db g k -> view m s -> live db ->
  exists m', reach m m' /\ ctx m' e w (XCOM 0 o) q db g k /\ view m' (irun bl s (repeat (if sep_at y bl q e NL then Sep NL else Txt false (tk q NL)) nl)).
Proof.
  intros F. induction nl as [|nl IH]; intros m s db X V LV; [exists m; split; [apply r_refl|]; auto|].
  destruct (ty_ctx m s e w _ (XCOM nl o) q db g k X V) as [X1 V1].
  destruct (src_char' _ _ _ _ _ _ _ _ _ NL X1 F V1 LV) as (m1 & S1 & X2 & V2); try reflexivity; [discriminate|].
  destruct (IH _ _ _ X2 V2 LV) as (m2 & R & X3 & V3). exists m2. split; [|auto]. apply r_step with m1; [|exact R].
  unfold step. rewrite (x_ty _ _ _ _ _ _ _ _ X), (x_quote _ _ _ _ _ _ _ _ X). exact S1.
Qed.
Lemma xcom_ok e w q g k : same g -> forall n o m s db, (length o <= n)%nat -> ctx m e w (XCOM 0 o) q db g k -> view m s -> live db ->
  exists m', reach m m' /\ ctx m' e w XBASE q (down_db db) g k /\ view m' (irun bl s (chars y bl q e false (printed o))).
Proof.
  intros F. induction n as [|n IH]; intros o m s db HL X V LV.
  - destruct o; [|cbn in HL; lia]. destruct (ty_ctx m s e w _ XBASE q db g k X V) as [X1 V1]. destruct (down_ctx _ _ _ _ _ _ _ _ _ X1 F V1) as [X2 V2].
    eexists. split; [eapply r_step; [|apply r_refl]|split; [exact X2|exact V2]]. unfold step. rewrite (x_ty _ _ _ _ _ _ _ _ X). reflexivity.
  - assert (ST : step E y m = match skip_nl o O with
      | (_, []) => Next E (down E (set_ty E m XBASE))
      | (S nl, o) => char_out E y (set_ty E m (XCOM nl o)) NL (quote E m) false
      | (O, c :: o) => char_out E y (set_ty E m (XCOM O o)) c (quote E m) false end)
      by (unfold step; rewrite (x_ty _ _ _ _ _ _ _ _ X); reflexivity).
    rewrite (x_quote _ _ _ _ _ _ _ _ X) in ST.
    pose proof (skip_nl_ok o 0) as SK. destruct (skip_nl o 0) as [nl o'] eqn:SKE. destruct SK as (_ & HL2 & P). rewrite Nat.sub_0_r in P.
    destruct o' as [|c o'].
    + rewrite P. destruct (ty_ctx m s e w _ XBASE q db g k X V) as [X1 V1]. destruct (down_ctx _ _ _ _ _ _ _ _ _ X1 F V1) as [X2 V2].
      eexists. split; [eapply r_step; [|apply r_refl]|split; [exact X2|exact V2]]. rewrite ST. now destruct nl.
    + destruct P as (N & Q & P). rewrite P, chars_nl, chars_cons, irun_app.
      assert (ONE : forall m s db, ctx m e w (XCOM 0 (c :: o')) q db g k -> view m s -> live db ->
        exists m', reach m m' /\ ctx m' e w XBASE q (down_db db) g k /\ view m' (irun bl s ((if sep_at y bl q e c then Sep c else Txt false (tk q c)) :: chars y bl q e false (printed o')))).
      { clear m s db X V LV ST. intros m s db X V LV. destruct (ty_ctx m s e w _ (XCOM 0 o') q db g k X V) as [X1 V1].
        destruct (src_char' _ _ _ _ _ _ _ _ _ c X1 F V1 LV N) as (m1 & S1 & X2 & V2); try reflexivity; [discriminate|].
        assert (HL3 : (length o' <= n)%nat) by (cbn in HL2; lia).
        destruct (IH o' m1 _ db HL3 X2 V2 LV) as (m2 & R & X3 & V3).
        exists m2. split; [|auto]. apply r_step with m1; [|exact R]. unfold step. rewrite (x_ty _ _ _ _ _ _ _ _ X), (x_quote _ _ _ _ _ _ _ _ X).
        cbn [skip_nl]. rewrite N, Q. exact S1. }
      destruct nl as [|nl].
      * cbn [repeat irun fold_left]. destruct (ty_ctx m s e w _ (XCOM 0 (c :: o')) q db g k X V) as [X1 V1].
        destruct (ONE _ _ _ X1 V1 LV) as (m2 & R & X3 & V3). exists m2. split; [|auto].
        inversion R as [|? m1 ? S1 R1]; subst; [exfalso; pose proof (x_ty _ _ _ _ _ _ _ _ X3); pose proof (x_ty _ _ _ _ _ _ _ _ X1); congruence|].
        apply r_step with m1; [|exact R1]. rewrite ST, <- S1. unfold step. rewrite (x_ty _ _ _ _ _ _ _ _ X1), (x_quote _ _ _ _ _ _ _ _ X1).
        cbn [skip_nl]. rewrite N, Q. reflexivity.
      * destruct (ty_ctx m s e w _ (XCOM nl (c :: o')) q db g k X V) as [X1 V1].
        destruct (src_char' _ _ _ _ _ _ _ _ _ NL X1 F V1 LV) as (m1 & S1 & X2 & V2); try reflexivity; [discriminate|].
        destruct (xcom_nl e w q g k (c :: o') F _ _ _ _ X2 V2 LV) as (m2 & R2 & X3 & V3).
        destruct (ONE _ _ _ X3 V3 LV) as (m3 & R3 & X4 & V4). exists m3. split; [|auto].
        apply r_step with m1; [now rewrite ST|]. eapply reach_trans; eauto.
Qed.

(** $* and $@ *)
Lemma xarg_chars e w q g k rest split : same g -> forall str m s db, ctx m e w (XARG false str rest split) q db g k -> view m s -> live db -> nul_free str = true ->
  exists m', reach m m' /\ ctx m' e w (XARG false [] rest split) q db g k /\ view m' (irun bl s (chars y bl q e false str)).
Proof.
  intros F. induction str as [|c r IH]; intros m s db X V LV N; [exists m; split; [apply r_refl|]; auto|].
  apply nul_free_cons in N as [N1 N2]. destruct (ty_ctx m s e w _ (XARG false r rest split) q db g k X V) as [X1 V1].
  destruct (src_char' _ _ _ _ _ _ _ _ _ c X1 F V1 LV N1) as (m1 & S1 & X2 & V2); try reflexivity; [discriminate|].
  destruct (IH _ _ _ X2 V2 LV N2) as (m2 & R & X3 & V3). exists m2. rewrite chars_cons. split; [|auto].
  apply r_step with m1; [|exact R]. unfold step. rewrite (x_ty _ _ _ _ _ _ _ _ X), (x_quote _ _ _ _ _ _ _ _ X). exact S1.
Qed.
Lemma ifs0_in e : is_nul (ifs0 (ifs y e)) = false -> mem (ifs0 (ifs y e)) (ifs y e) = true.
Proof. destruct (ifs y e) as [|c r]; cbn; [discriminate|]. intros _. unfold mem. cbn. now rewrite ceq_refl. Qed.
Lemma joined_cons q e s s' r : joined y bl q e (s :: s' :: r) = chars y bl q e false s ++ between y bl q e ++ joined y bl q e (s' :: r).
Proof. reflexivity. Qed.
Lemma arg_end m s e w q db g k split : ctx m e w (XARG false [] [] split) q db g k -> same g -> view m s -> q && split = false ->
  exists m', reach m m' /\ ctx m' e w XBASE q (down_db db) g k /\ view m' s.
Proof.
  intros X F V QS. destruct (ty_ctx m s e w _ XBASE q db g k X V) as [X1 V1]. destruct (down_ctx _ _ _ _ _ _ _ _ _ X1 F V1) as [X2 V2].
  eexists. split; [eapply r_step; [|apply r_refl]|split; [exact X2|exact V2]]. unfold step. rewrite (x_ty _ _ _ _ _ _ _ _ X), (x_quote _ _ _ _ _ _ _ _ X), QS. reflexivity.
Qed.
Lemma xarg_ok e w q g k split : same g -> q && split = false -> forall rest str m s db, ctx m e w (XARG false str rest split) q db g k -> view m s -> live db ->
  Forall (fun s => nul_free s = true) (str :: rest) ->
  exists m', reach m m' /\ ctx m' e w XBASE q (down_db db) g k /\ view m' (irun bl s (joined y bl q e (str :: rest))).
Proof.
  intros F QS. induction rest as [|str' rest IH]; intros str m s db X V LV N; inversion N as [|? ? N1 N2]; subst;
    destruct (xarg_chars e w q g k _ split F _ _ _ _ X V LV N1) as (m1 & R1 & X1 & V1).
  - destruct (arg_end _ _ _ _ _ _ _ _ _ X1 F V1 QS) as (m2 & R2 & X2 & V2). exists m2. split; [eapply reach_trans; eauto|auto].
  - assert (ST : step E y m1 = (let c := ifs0 (ifs y e) in let m := set_ty E m1 (XARG false str' rest split) in
        if is_nul c then
          if q && negb split then Next E m
          else if negb q && match word E m with WS => true | _ => false end then Next E m
          else Next E (after_split E (emit_word E m) SP)
        else char_out E y m c q false)).
    { unfold step. rewrite (x_ty _ _ _ _ _ _ _ _ X1), (x_quote _ _ _ _ _ _ _ _ X1), QS, (x_env _ _ _ _ _ _ _ _ X1). cbv zeta. cbn [quote set_ty]. rewrite (x_quote _ _ _ _ _ _ _ _ X1), QS. reflexivity. }
    cbv zeta in ST. rewrite joined_cons, !irun_app.
    destruct (ty_ctx m1 _ e w _ (XARG false str' rest split) q db g k X1 V1) as [X2 V2].
    assert (G : exists m2, step E y m1 = Next E m2 /\ ctx m2 e w (XARG false str' rest split) q db g k /\ view m2 (irun bl (irun bl s (chars y bl q e false str)) (between y bl q e))).
    { unfold between. destruct (is_nul (ifs0 (ifs y e))) eqn:NL.
      - destruct q.
        + cbn in QS. subst split. exists (set_ty E m1 (XARG false str' rest false)). split; [rewrite ST; reflexivity|]. auto.
        + cbn [andb negb] in ST. cbn [irun fold_left istep]. rewrite (v_word _ _ V2) in ST. set (s1 := irun bl s _) in *.
          destruct (flush_ok _ _ _ _ _ _ _ _ _ X2 F V2) as [X3 V3]. destruct (after_ok _ _ _ _ _ _ _ _ _ SP X3 V3) as [X4 V4].
          destruct (iw s1) eqn:W.
          1,3,4,5: eexists; (split; [exact ST|]); split; [exact X4|]; cbn [iflush iw] in V4; rewrite W in V4; exact V4 || (cbn [iflush iw]; rewrite W; exact V4).
          eexists; (split; [exact ST|]). auto.
      - destruct (src_char' _ _ _ _ _ _ _ _ _ (ifs0 (ifs y e)) X2 F V2 LV NL) as (m2 & S2 & X3 & V3); try reflexivity; [discriminate|].
        exists m2. split; [now rewrite ST|]. split; auto. unfold sep_at in V3. rewrite ifs0_in, andb_true_r in V3 by auto.
        destruct (negb q && bl); exact V3. }
    destruct G as (m2 & S2 & X3 & V3). destruct (IH _ _ _ _ X3 V3 LV N2) as (m3 & R3 & X4 & V4). exists m3. split; [|auto].
    eapply reach_trans; [exact R1|]. apply r_step with m2; auto.
Qed.

(** "$@" *)
Lemma chars_q e str : chars y bl true e false str = map (fun c => Txt false (TQ c)) str.
Proof. induction str as [|c r IH]; [reflexivity|]. rewrite chars_cons, IH. reflexivity. Qed.
Lemma irun_txts s l : icur (irun bl s (map (fun c => Txt false (TQ c)) l)) = icur s ++ map TQ l /\ idone (irun bl s (map (fun c => Txt false (TQ c)) l)) = idone s.
Proof.
  revert s. induction l as [|c l IH]; intros s; cbn; [now rewrite app_nil_r|]. destruct (IH (istep bl s (Txt false (TQ c)))) as [H1 H2].
  unfold irun in *. cbn [istep icur idone] in H1, H2. rewrite H1, H2. now rewrite app_nil_r, <- app_assoc.
Qed.
Lemma arg_split_step m s e w g k db rest : ctx m e w (XARG false [] rest true) true db g k -> view m s ->
  let m1 := set_word E m WORD in
  step E y m = match rest with
      | [] => Next E (down E (set_ty E m1 XBASE))
      | str :: rest =>
        let c := ifs0 (ifs y e) in
        let m := set_ty E m1 (XARG false str rest true) in
        if is_nul c then Next E (after_split E (emit_word E m) SP)
        else char_out E y (set_quote E (set_ty E m (XARG true str rest true)) false) c false false end.
Proof.
  intros X V. cbv zeta. unfold step. rewrite (x_ty _ _ _ _ _ _ _ _ X), (x_quote _ _ _ _ _ _ _ _ X). cbn [andb].
  destruct rest as [|a rest]; [reflexivity|]. cbv zeta. cbn [quote set_ty env set_word]. rewrite (x_quote _ _ _ _ _ _ _ _ X), (x_env _ _ _ _ _ _ _ _ X). reflexivity.
Qed.
(** after a separator the next parameter is read with quotes on *)
Lemma sep_first m s e w g k db str rest :
  ctx m e w (XARG true str rest true) false db g k -> view m s ->
  exists m0, ctx m0 e w (XARG false str rest true) true db g k /\ view m0 s /\ step E y m = step E y m0.
Proof.
  intros X V. destruct (ty_ctx m s e w _ (XARG false str rest true) false db g k X V) as [X3 V3].
  destruct (quote_ctx _ _ _ _ _ true _ _ _ _ X3 V3) as [X4 V4]. eexists. split; [exact X4|]. split; [exact V4|].
  unfold step. rewrite (x_ty _ _ _ _ _ _ _ _ X), (x_ty _ _ _ _ _ _ _ _ X4). reflexivity.
Qed.
Lemma reach_first m m0 m2 : step E y m = step E y m0 -> reach m0 m2 -> ty E m0 <> ty E m2 -> reach m m2.
Proof. intros S1 R N. inversion R as [|? m1 ? S2 R2]; subst; [now destruct N|]. apply r_step with m1; congruence. Qed.

Lemma xat_ok e w g k : same g -> bl || is_nul (ifs0 (ifs y e)) = true ->
  forall rest str m s db, ctx m e w (XARG false str rest true) true db g k -> view m s -> live db -> Forall (fun s => nul_free s = true) (str :: rest) ->
  exists m', reach m m' /\ ctx m' e w XBASE true (down_db db) g k /\ view m' (istep bl s (Args (map (map TQ) (str :: rest)))).
Proof.
  intros F SPL. induction rest as [|str' rest IH]; intros str m s db X V LV N; inversion N as [|? ? N1 N2]; subst;
    destruct (xarg_chars e w true g k _ true F _ _ _ _ X V LV N1) as (m1 & R1 & X1 & V1);
    rewrite chars_q in V1; destruct (irun_txts s str) as [C1 C2]; set (s1 := irun bl s _) in *;
    pose proof (arg_split_step _ _ _ _ _ _ _ _ X1 V1) as ST; cbv zeta in ST;
    destruct (word_ctx _ _ _ _ _ WORD _ _ _ _ X1 V1) as [X2 V2]; rewrite C1, C2 in V2.
  - destruct (ty_ctx _ _ e w _ XBASE true db g k X2 V2) as [X3 V3]. destruct (down_ctx _ _ _ _ _ _ _ _ _ X3 F V3) as [X4 V4].
    eexists. split; [eapply reach_trans; [exact R1|]; eapply r_step; [exact ST|apply r_refl]|]. split; [exact X4|].
    cbn [map istep last removelast]. rewrite app_nil_r. exact V4.
  - destruct (ty_ctx _ _ e w _ (XARG false str' rest true) true db g k X2 V2) as [X3 V3].
    set (all := (icur s ++ map TQ str) :: map (map TQ) (str' :: rest)).
    assert (FIN : forall w0, istep bl (I w0 [] (idone s ++ [icur s ++ map TQ str])) (Args (map (map TQ) (str' :: rest))) = istep bl s (Args (map (map TQ) (str :: str' :: rest)))).
    { intros w0. cbn [map istep icur idone app]. f_equal. change (removelast ((icur s ++ map TQ str) :: map TQ str' :: map (map TQ) rest)) with ((icur s ++ map TQ str) :: removelast (map TQ str' :: map (map TQ) rest)).
      now rewrite <- app_assoc. }
    destruct (is_nul (ifs0 (ifs y e))) eqn:NU.
    + destruct (flush_ok _ _ _ _ _ _ _ _ _ X3 F V3) as [X4 V4]. destruct (after_ok _ _ _ _ _ _ _ _ _ SP X4 V4) as [X5 V5].
      destruct (IH _ _ _ _ X5 V5 LV N2) as (m3 & R3 & X6 & V6). exists m3. split; [eapply reach_trans; [exact R1|]; eapply r_step; [exact ST|exact R3]|].
      split; [exact X6|]. rewrite <- (FIN (ws_after WORD SP)). exact V6.
    + rewrite orb_false_r in SPL.
      destruct (ty_ctx _ _ e w _ (XARG true str' rest true) true db g k X3 V3) as [X4 V4].
      destruct (quote_ctx _ _ _ _ _ false _ _ _ _ X4 V4) as [X5 V5].
      destruct (src_char' _ _ _ _ _ _ _ _ _ (ifs0 (ifs y e)) X5 F V5 LV NU) as (m2 & S2 & X6 & V6); try reflexivity; [discriminate|].
      unfold sep_at in V6. rewrite ifs0_in, SPL in V6 by auto. cbn [negb andb] in V6.
      destruct (sep_first _ _ _ _ _ _ _ _ _ X6 V6) as (m0 & X7 & V7 & S7).
      destruct (IH _ _ _ _ X7 V7 LV N2) as (m3 & R3 & X8 & V8). exists m3.
      split. { eapply reach_trans; [exact R1|]. eapply r_step; [rewrite ST; exact S2|]. apply (reach_first _ _ _ S7 R3). rewrite (x_ty _ _ _ _ _ _ _ _ X7), (x_ty _ _ _ _ _ _ _ _ X8). discriminate. }
      split; [exact X8|]. rewrite SPL in V8. rewrite <- (FIN (ws_after WORD (ifs0 (ifs y e)))), SPL. exact V8.
Qed.
Lemma at_joined_cons e s s' r : at_joined y bl e (s :: s' :: r) = chars y bl true e false s ++ [Full; Txt false (TU (ifs0 (ifs y e)))] ++ at_joined y bl e (s' :: r).
Proof. reflexivity. Qed.
Lemma xatj_ok e w g k : same g -> bl || is_nul (ifs0 (ifs y e)) = false ->
  forall rest str m s db, ctx m e w (XARG false str rest true) true db g k -> view m s -> live db -> Forall (fun s => nul_free s = true) (str :: rest) ->
  exists m', reach m m' /\ ctx m' e w XBASE true (down_db db) g k /\ view m' (irun bl s (at_joined y bl e (str :: rest))).
Proof.
  intros F SPL. apply orb_false_iff in SPL as [NB NU]. induction rest as [|str' rest IH]; intros str m s db X V LV N; inversion N as [|? ? N1 N2]; subst;
    destruct (xarg_chars e w true g k _ true F _ _ _ _ X V LV N1) as (m1 & R1 & X1 & V1);
    pose proof (arg_split_step _ _ _ _ _ _ _ _ X1 V1) as ST; cbv zeta in ST;
    destruct (word_ctx _ _ _ _ _ WORD _ _ _ _ X1 V1) as [X2 V2].
  - destruct (ty_ctx _ _ e w _ XBASE true db g k X2 V2) as [X3 V3]. destruct (down_ctx _ _ _ _ _ _ _ _ _ X3 F V3) as [X4 V4].
    eexists. split; [eapply reach_trans; [exact R1|]; eapply r_step; [exact ST|apply r_refl]|]. split; [exact X4|].
    cbn [at_joined]. rewrite irun_app. exact V4.
  - destruct (ty_ctx _ _ e w _ (XARG false str' rest true) true db g k X2 V2) as [X3 V3].
    rewrite NU in ST.
    destruct (ty_ctx _ _ e w _ (XARG true str' rest true) true db g k X3 V3) as [X4 V4].
    destruct (quote_ctx _ _ _ _ _ false _ _ _ _ X4 V4) as [X5 V5].
    destruct (src_char' _ _ _ _ _ _ _ _ _ (ifs0 (ifs y e)) X5 F V5 LV NU) as (m2 & S2 & X6 & V6); try reflexivity; [discriminate|].
    unfold sep_at in V6. rewrite NB in V6. cbn [negb andb] in V6.
    destruct (sep_first _ _ _ _ _ _ _ _ _ X6 V6) as (m0 & X7 & V7 & S7).
    destruct (IH _ _ _ _ X7 V7 LV N2) as (m3 & R3 & X8 & V8). exists m3.
    split. { eapply reach_trans; [exact R1|]. eapply r_step; [rewrite ST; exact S2|]. apply (reach_first _ _ _ S7 R3). rewrite (x_ty _ _ _ _ _ _ _ _ X7), (x_ty _ _ _ _ _ _ _ _ X8). discriminate. }
    split; [exact X8|]. rewrite at_joined_cons, !irun_app. rewrite NB in V8. rewrite NB. exact V8.
Qed.

(** * Names *)
Lemma vector_none n : mem "["%char n = false -> vector n = None.
Proof.
  induction n as [|c r IH]; [reflexivity|]. unfold mem in *. cbn [existsb]. intros H. apply orb_false_iff in H as [H1 H2].
  cbn [vector]. assert (ceq c "[" = false) as ->. { destruct (ceq_spec c "["%char) as [->|]; auto. }
  apply IH. exact H2.
Qed.
Lemma vector_app b (a : bool) : mem "["%char b = false -> vector (b ++ ["["%char; if a then "@"%char else "*"%char; "]"%char]) = Some a.
Proof.
  induction b as [|c r IH]; [now destruct a|]. unfold mem in *. cbn [existsb]. intros H. apply orb_false_iff in H as [H1 H2].
  cbn [vector app]. assert (ceq c "[" = false) as ->. { destruct (ceq_spec c "["%char) as [->|]; auto. }
  apply IH. exact H2.
Qed.
Definition src_of (v : vkind) : source :=
  match v with Scalar s => XSUB false (match s with Some s => s | None => [] end) | Vector a l => arg_source l a end.
Lemma scalar_name_inv n : scalar_name n = true -> exists c r, n = c :: r /\ mem "["%char n = false /\ star_or_at n = None /\
  (ceq c "#" && negb (match r with [] => true | _ => false end)) = false.
Proof.
  destruct n as [|c r]; [discriminate|]. unfold scalar_name. intros H. apply andb_true_iff in H as [H H3]. apply andb_true_iff in H as [H1 H2].
  apply negb_true_iff in H1, H2. exists c, r. split; auto. split; auto. split.
  - unfold star_or_at. unfold mem in H2. cbn in H2. apply orb_false_iff in H2 as [H2 H4]. apply orb_false_iff in H4 as [H4 _]. now rewrite H2, H4.
  - destruct (ceq c "#"); auto. cbn in *. now rewrite H3.
Qed.
Lemma array_name_inv n a : array_name n = Some a -> exists c r, n = c :: r /\ vector n = Some a /\ star_or_at n = None /\ ceq c "#" = false.
Proof.
  unfold array_name. set (k := (length n - 3)%nat). destruct (scalar_name (firstn k n)) eqn:S1; [|discriminate]. cbn [andb].
  destruct (str_eqb (firstn k n) (L "#")) eqn:S2; [discriminate|]. cbn [negb]. intros H.
  assert (Q : skipn k n = ["["%char; if a then "@"%char else "*"%char; "]"%char]).
  { destruct (str_eqb (skipn k n) (L "[@]")) eqn:A; [injection H as <-; now apply str_eqb_true in A|].
    destruct (str_eqb (skipn k n) (L "[*]")) eqn:B; [|discriminate]. injection H as <-. now apply str_eqb_true in B. }
  rewrite <- (firstn_skipn k n), Q. destruct (scalar_name_inv _ S1) as (c & r & E1 & E2 & E3 & E4). rewrite E1 in *. cbn [app].
  exists c, (r ++ ["["%char; if a then "@"%char else "*"%char; "]"%char]). split; auto. split; [apply (vector_app (c :: r)); auto|]. split; auto.
  destruct r; [|now rewrite andb_true_r in E4]. destruct (ceq c "#") eqn:Z; auto. apply ceq_true in Z. subst. discriminate.
Qed.
Definition str_of (v : vkind) : option cstr := match v with Scalar s => s | Vector _ l => hd_error l end.
Definition vbase (t : styp) (v : vkind) : bool :=
  match t with Some (colon, o) => if missing colon v then ceq o "=" || ceq o "-" || ceq o "?" else ceq o "+" | None => false end.
(** what varsub gives for the names covered *)
Lemma varsub_ok e n v w0 w t slen :
  kind y e n = Some v -> qualifier (w0 :: w) = Some (t, slen) -> match t with None => ceq w0 CSUBST = true | Some (_, o) => is_subop1 o = true /\ is_subop2 o = false end ->
  (match t with Some (_, o) => ceq o "=" = true -> vbase t v = false /\ special n = false /\ exists x, v = Scalar x /\ match n with c :: _ => mem c (L "*@#!$-?") || isdigit c | [] => true end = false | None => True end) ->
  (match t with Some (_, o) => ceq o "?" = true -> special n = true \/ exists x, v = Scalar x | None => True end) ->
  (nounset y e && unset v && negb (special n) && (negb (vbase t v) && negb (ceq (op_of t) "+"))) = false ->
  exists var, varsub E y e n (w0 :: w) = V (if vbase t v then XBASE else src_of v) t slen var.
Proof.
  intros K Q T CE CQ NU. unfold varsub, kind in *.
  assert (SO2 : is_subop2 (op_of t) = false) by (destruct t as [[? ?]|]; [apply T|reflexivity]).
  assert (GO : forall src str var zero_ok,
    src = src_of v -> str = str_of v -> zero_ok = special n ->
    exists x, (let undef := match t with Some (true, _) => match str with Some (_ :: _) => false | _ => true end | _ => match str with None => true | _ => false end end in
            let base := is_subop2 (op_of t) || (if undef then ceq (op_of t) "=" || ceq (op_of t) "-" || ceq (op_of t) "?" else ceq (op_of t) "+") in
            if nounset y e && (match str with None => true | _ => false end) && negb zero_ok && (is_subop2 (op_of t) || (negb base && negb (ceq (op_of t) "+"))) then VErr
            else V (if base then XBASE else src) t slen var) = V (if vbase t v then XBASE else src_of v) t slen x).
  { intros src str var zero_ok -> -> ->. cbv zeta. rewrite SO2. cbn [orb].
    assert (B : (if match t with Some (true, _) => match str_of v with Some (_ :: _) => false | _ => true end | _ => match str_of v with None => true | _ => false end end
                 then ceq (op_of t) "=" || ceq (op_of t) "-" || ceq (op_of t) "?" else ceq (op_of t) "+") = vbase t v).
    { destruct t as [[colon o]|]; [|destruct v as [[|]|? [|? ?]]; reflexivity]. cbn [op_of vbase]. destruct v as [[s|]|a [|s l]]; destruct colon; cbn; try reflexivity; now destruct s. }
    rewrite B. assert (U : (match str_of v with None => true | _ => false end) = unset v) by (destruct v as [[|]|? [|? ?]]; reflexivity).
    rewrite U, NU. eauto. }
  destruct (str_eqb n (L "@")) eqn:N1; [|destruct (str_eqb n (L "*")) eqn:N2; [|destruct (scalar_name n) eqn:N3; [|destruct (array_name n) as [a|] eqn:N4; [|discriminate]]]].
  - apply str_eqb_true in N1. subst n. injection K as <-. change (L "@") with ["@"%char] in *. cbn [at0]. change (ceq "@" "#" && _) with false. cbn iota. rewrite Q.
    replace (_ && negb (ceq w0 CSUBST)) with false by (destruct t; [auto|rewrite T; auto]).
    change (star_or_at ["@"%char]) with (Some true). cbv iota beta.
    replace (ceq (op_of t) "=" || ceq (op_of t) "%" || ceq (op_of t) "#") with false.
    2: { symmetry. destruct t as [[cl o]|]; [|reflexivity]. cbn [op_of]. destruct T as [T1 T2]. unfold is_subop2, mem in T2. cbn in T2. apply orb_false_iff in T2 as [T2 T3]. apply orb_false_iff in T3 as [T3 _].
         rewrite T2, T3, !orb_false_r. destruct (ceq o "=") eqn:Z; auto. destruct (CE eq_refl) as (_ & X & _). discriminate X. }
    destruct (params y e) as [|s r] eqn:P; [exact (GO (arg_source [] true) None (Some ["@"%char]) true eq_refl eq_refl eq_refl)|exact (GO (arg_source (s :: r) true) (Some s) None true eq_refl eq_refl eq_refl)].
  - apply str_eqb_true in N2. subst n. injection K as <-. change (L "*") with ["*"%char] in *. cbn [at0]. change (ceq "*" "#" && _) with false. cbn iota. rewrite Q.
    replace (_ && negb (ceq w0 CSUBST)) with false by (destruct t; [auto|rewrite T; auto]).
    change (star_or_at ["*"%char]) with (Some false). cbv iota beta.
    replace (ceq (op_of t) "=" || ceq (op_of t) "%" || ceq (op_of t) "#") with false.
    2: { symmetry. destruct t as [[cl o]|]; [|reflexivity]. cbn [op_of]. destruct T as [T1 T2]. unfold is_subop2, mem in T2. cbn in T2. apply orb_false_iff in T2 as [T2 T3]. apply orb_false_iff in T3 as [T3 _].
         rewrite T2, T3, !orb_false_r. destruct (ceq o "=") eqn:Z; auto. destruct (CE eq_refl) as (_ & X & _). discriminate X. }
    destruct (params y e) as [|s r] eqn:P; [exact (GO (arg_source [] false) None (Some ["*"%char]) true eq_refl eq_refl eq_refl)|exact (GO (arg_source (s :: r) false) (Some s) None true eq_refl eq_refl eq_refl)].
  - injection K as <-. destruct (scalar_name_inv _ N3) as (c & r & -> & E2 & E3 & E4). cbn [at0]. rewrite E4, Q.
    replace (_ && negb (ceq w0 CSUBST)) with false by (destruct t; [auto|rewrite T; auto]).
    rewrite E3, (vector_none _ E2).
    replace (ceq (op_of t) "=" && (mem c (L "*@#!$-?") || isdigit c)) with false.
    2: { symmetry. destruct t as [[cl o]|]; [|reflexivity]. cbn [op_of]. destruct (ceq o "=") eqn:Z; auto. destruct (CE eq_refl) as (_ & _ & x & _ & X). exact X. }
    assert (SPN : special (c :: r) = false) by (unfold special; now rewrite N1, N2).
    exact (GO (XSUB false _) (value y e (c :: r)) (Some (c :: r)) false eq_refl eq_refl (eq_sym SPN)).
  - injection K as <-. destruct (array_name_inv _ _ N4) as (c & r & -> & E2 & E3 & E4). cbn [at0]. rewrite E4. cbn [andb]. rewrite Q.
    replace (_ && negb (ceq w0 CSUBST)) with false by (destruct t; [auto|rewrite T; auto]).
    rewrite E3, E2.
    assert (SPN : special (c :: r) = false) by (unfold special; now rewrite N1, N2).
    replace (ceq (op_of t) "=" || ceq (op_of t) "%" || ceq (op_of t) "#" || ceq (op_of t) "?") with false.
    2: { symmetry. destruct t as [[cl o]|]; [|reflexivity]. cbn [op_of]. destruct T as [T1 T2]. unfold is_subop2, mem in T2. cbn in T2. apply orb_false_iff in T2 as [T2 T3]. apply orb_false_iff in T3 as [T3 _].
         rewrite T2, T3, !orb_false_r. destruct (ceq o "=") eqn:Z; [destruct (CE eq_refl) as (_ & _ & x & X & _); discriminate X|].
         destruct (ceq o "?") eqn:Z2; auto. destruct (CQ eq_refl) as [X|[x X]]; [congruence|discriminate X]. }
    destruct (elems y e (c :: r)) as [|s l] eqn:P; [exact (GO (arg_source [] a) None None false eq_refl eq_refl (eq_sym SPN))|exact (GO (arg_source (s :: l) a) (Some s) None false eq_refl eq_refl (eq_sym SPN))].
Qed.

Lemma kind_ok e n v : kind y e n = Some v -> match v with Scalar (Some s) => nul_free s = true | Scalar None => True | Vector _ l => Forall (fun s => nul_free s = true) l end.
Proof.
  destruct Y as (Y1 & Y2 & Y3 & Y4 & Y5). unfold kind.
  destruct (str_eqb n (L "@")); [intros [= <-]; apply Y1|]. destruct (str_eqb n (L "*")); [intros [= <-]; apply Y1|].
  destruct (scalar_name n); [intros [= <-]; destruct (value y e n) eqn:V; auto; eapply Y2; eauto|].
  destruct (array_name n); [|discriminate]. intros [= <-]. apply Y3.
Qed.

(** the text of a substitution, once it is [type] *)
Lemma src_ok e w q g k v : same g -> match v with Scalar (Some s) => nul_free s = true | Scalar None => True | Vector _ l => Forall (fun s => nul_free s = true) l end ->
  forall m s db, ctx m e w (src_of v) q db g k -> view m s -> live db ->
  exists m', reach m m' /\ ctx m' e w XBASE q (down_db db) g k /\
    view m' (irun bl s (match v with Vector true [] => [Null] | v => tl (subst y bl q e v) end)).
Proof.
  intros F N m s db X V LV. destruct v as [v|a l].
  - cbn [subst tl]. apply (xsub_ok e w q g k F _ false m s db); auto. now destruct v.
  - destruct a, l as [|str rest].
    + cbn [src_of arg_source] in X. destruct (ty_ctx m s e w _ XBASE q db g k X V) as [X1 V1].
      assert (ST : step E y m = (let m := set_ty E m XBASE in if bl then let m := down E m in Next E (match dp E m, word E m with [], WORD => m | [], _ => set_word E m IWS | _, _ => m end) else Next E m)).
      { unfold step. rewrite (x_ty _ _ _ _ _ _ _ _ X). cbn [f set_ty]. rewrite (x_f _ _ _ _ _ _ _ _ X). destruct F as [F1 _]. now rewrite F1. }
      cbv zeta in ST. destruct (down_ctx _ _ _ _ _ _ _ _ _ X1 F V1) as [X2 V2]. cbn [irun fold_left istep].
      destruct bl eqn:B.
      * eexists. split; [eapply r_step; [exact ST|apply r_refl]|].
        assert (D : match icur s with [] => dp E (down E (set_ty E m XBASE)) = [] | _ => dp E (down E (set_ty E m XBASE)) <> [] end).
        { rewrite (v_dp _ _ V2). destruct (icur s); [reflexivity|]. intros H. apply emits_nil in H. discriminate. }
        destruct (icur s) as [|t0 c0] eqn:C.
        -- rewrite D, (v_word _ _ V2). destruct (word_ctx _ _ _ _ _ IWS _ _ _ _ X2 V2) as [X3 V3]. rewrite C in V3. destruct (iw s) eqn:W; auto.
        -- destruct (dp E (down E (set_ty E m XBASE))); [now destruct D|]. auto.
      * eexists. split; [eapply r_step; [exact ST|apply r_refl]|]. split; [|exact V1]. unfold down_db. rewrite B. exact X1.
    + cbn [src_of arg_source subst tl] in *. destruct q.
      * destruct (bl || is_nul (ifs0 (ifs y e))) eqn:SPL; [apply xat_ok; auto|apply xatj_ok; auto].
      * apply xarg_ok with (split := true); auto.
    + cbn [src_of arg_source subst tl] in *. apply (xsub_ok e w q g k F [] false m s db); auto.
    + cbn [src_of arg_source subst tl] in *. apply xarg_ok with (split := false); auto. now rewrite andb_false_r.
Qed.

(** * The word *)
Lemma to_nul_ok n r : nul_free n = true -> to_nul (n ++ NUL :: r) = Some (n, r).
Proof. induction n as [|c n IH]; [reflexivity|]. intros H. apply nul_free_cons in H as [H1 H2]. cbn. now rewrite H1, IH. Qed.
Lemma scan_txt n nest c r : nul_free n = true -> scan MText nest c (n ++ NUL :: r) = scan MCode nest c r.
Proof. induction n as [|x n IH]; [reflexivity|]. intros H. apply nul_free_cons in H as [H1 H2]. cbn [app scan]. change (ceq x NUL) with (is_nul x). rewrite H1. auto. Qed.
Lemma scan_code p : forall nest r, lexed p = true -> 0 <= nest -> scan MCode nest CSUBST (code p ++ r) = scan MCode nest CSUBST r.
Proof.
  induction p as [|c k IH|c k IH|l IHl k IHk|b n k IH|n colon o l IHl k IHk|t k IH|t k IH|c l IHl k IHk|k IH]; intros nest r W N; cbn [lexed] in W;
    repeat match goal with H : _ && _ = true |- _ => apply andb_true_iff in H as [? ?] end; cbn [code]; rewrite <- ?app_comm_cons, <- ?app_assoc.
  - reflexivity.
  - change (scan MCode nest CSUBST (CHAR :: c :: code k ++ r)) with (scan MCode nest CSUBST (code k ++ r)). auto.
  - change (scan MCode nest CSUBST (QCHAR :: c :: code k ++ r)) with (scan MCode nest CSUBST (code k ++ r)). auto.
  - change (scan MCode nest CSUBST (OQUOTE :: code l ++ (CQUOTE :: code k) ++ r)) with (scan MCode nest CSUBST (code l ++ (CQUOTE :: code k) ++ r)). rewrite IHl by auto.
    change (scan MCode nest CSUBST ((CQUOTE :: code k) ++ r)) with (scan MCode nest CSUBST (code k ++ r)). auto.
  - change (scan MCode nest CSUBST (OSUBST :: ?x :: ?w)) with (scan MText (nest + 1) CSUBST (x :: w)).
    cbn [scan]. replace (ceq (if b then "{" else "X")%char NUL) with false by (now destruct b). rewrite <- ?app_comm_cons. rewrite scan_txt by auto.
    change (scan MCode (nest + 1) CSUBST (CSUBST :: ?x :: ?w)) with (if (nest + 1 =? 0) then WAt w else scan MCode (nest + 1 - 1) CSUBST w).
    replace (nest + 1 =? 0) with false by (symmetry; apply Z.eqb_neq; lia). replace (nest + 1 - 1) with nest by lia. auto.
  - change (scan MCode nest CSUBST (OSUBST :: "{"%char :: ?w)) with (scan MText (nest + 1) CSUBST w).
    rewrite <- ?app_comm_cons. rewrite scan_txt by auto.
    assert (Q : forall w, scan MCode (nest + 1) CSUBST ((if colon then [CHAR; ":"%char] else []) ++ CHAR :: o :: w) = scan MCode (nest + 1) CSUBST w) by (intros w; now destruct colon).
    rewrite <- !app_assoc, <- !app_comm_cons, Q. rewrite <- app_assoc. rewrite IHl by (auto; lia). rewrite <- !app_comm_cons.
    change (scan MCode (nest + 1) CSUBST (CSUBST :: ?x :: ?w)) with (if (nest + 1 =? 0) then WAt w else scan MCode (nest + 1 - 1) CSUBST w).
    replace (nest + 1 =? 0) with false by (symmetry; apply Z.eqb_neq; lia). replace (nest + 1 - 1) with nest by lia. auto.
  - change (scan MCode nest CSUBST (COMSUB :: ?w)) with (scan MText nest CSUBST w). rewrite <- ?app_comm_cons. rewrite scan_txt by auto. auto.
  - change (scan MCode nest CSUBST (EXPRSUB :: ?w)) with (scan MText nest CSUBST w). rewrite <- ?app_comm_cons. rewrite scan_txt by auto. auto.
  - change (scan MCode nest CSUBST (OPAT :: c :: ?w)) with (scan MCode (nest + 1) CSUBST w). rewrite IHl by (auto; lia). rewrite <- app_comm_cons.
    change (scan MCode (nest + 1) CSUBST (CPAT :: ?w)) with (scan MCode (nest + 1 - 1) CSUBST w). replace (nest + 1 - 1) with nest by lia. auto.
  - change (scan MCode nest CSUBST (SPAT :: ?w)) with (scan MCode nest CSUBST w). auto.
Qed.

Definition dinv (d : bool) (db : Z) : Prop := 0 <= db /\ (bl = true -> d = negb (db =? 0)).
Lemma up_live d db : dinv d db -> live (up_db db) /\ dinv true (up_db db) /\ down_db (up_db db) = db.
Proof.
  intros [H1 H2]. unfold live, dinv, up_db, down_db. destruct bl; repeat split; intros; try lia; try discriminate.
Qed.

(** the beginning of a substitution *)
Lemma began_ok m s e w t0 t q db g k : ctx m e w t0 q db g k -> same g -> view m s ->
  ctx (began E m t) e w t q (up_db db) g k /\ view (began E m t) (match t with XNULLSUB => s | _ => istep bl s Begin end).
Proof.
  intros X F V. unfold began. destruct (ty_ctx _ _ _ _ _ t _ _ _ _ X V) as [X1 V1]. destruct (up_ctx _ _ _ _ _ _ _ _ _ X1 F V1) as [X2 V2].
  set (m2 := up E (set_ty E m t)) in *. clearbody m2.
  destruct (til_ctx _ _ _ _ _ (saw_eq E m2) false false _ _ _ _ X2 V2) as [X3 V3]. change (set_til E m2 (saw_eq E m2) false false) with (no_tilde E m2) in *.
  set (m3 := no_tilde E m2) in *. clearbody m3. clear X1 V1 X2 V2 m2 X V.
  destruct (word_ctx _ _ _ _ _ WORD _ _ _ _ X3 V3) as [X4 V4]. cbv zeta. rewrite (v_word _ _ V3). destruct s as [wd cur dn]. cbn [istep iw icur idone] in *.
  destruct wd, t; auto.
Qed.
Lemma code_osubst m e w w1 q db g k : ctx m e (OSUBST :: w) XBASE q db g k -> w1 = set_sp E m w -> step E y m = open_sub E y w1.
Proof. intros X ->. unfold step. rewrite (x_ty _ _ _ _ _ _ _ _ X), (x_sp _ _ _ _ _ _ _ _ X). reflexivity. Qed.

(** a substitution of a value *)
Lemma open_value m s e x n w0 w rest q db g k d v t slen var :
  ctx m e (OSUBST :: x :: n ++ NUL :: w0 :: w) XBASE q db g k -> same g -> view m s -> dinv d db -> nul_free n = true ->
  kind y e n = Some v -> varsub E y e n (w0 :: w) = V (src_of v) t slen var -> wdscan (w0 :: w) CSUBST = WAt rest ->
  exists m', reach m m' /\ ctx m' e rest XBASE q db g k /\ view m' (irun bl s (subst y bl q e v)).
Proof.
  intros X F V D N K VS WD. destruct (up_live _ _ D) as (LV & _ & DB).
  pose proof (code_osubst _ _ _ _ _ _ _ _ X eq_refl) as ST. destruct (sp_ctx _ _ _ _ _ (x :: n ++ NUL :: w0 :: w) _ _ _ _ X V) as [X0 V0].
  set (m0 := set_sp E m _) in *. clearbody m0. unfold open_sub in ST. rewrite (x_sp _ _ _ _ _ _ _ _ X0), (x_env _ _ _ _ _ _ _ _ X0) in ST.
  rewrite to_nul_ok in ST by auto. rewrite VS, WD in ST. destruct (began_ok _ _ _ _ _ (src_of v) _ _ _ _ X0 F V0) as [X1 V1]. cbv zeta in ST.
  set (m1 := began E m0 (src_of v)) in *. clearbody m1. destruct (sp_ctx _ _ _ _ _ rest _ _ _ _ X1 V1) as [X4 V4].
  assert (ST2 : step E y m = Next E (set_sp E m1 rest)) by (rewrite ST; destruct v as [|[] [|]]; reflexivity). clear ST.
  assert (Q : irun bl (match src_of v with XNULLSUB => s | _ => istep bl s Begin end) (match v with Vector true [] => [Null] | v => tl (subst y bl q e v) end) = irun bl s (subst y bl q e v)).
  { destruct v as [v|[] [|a l]]; reflexivity. }
  destruct (src_ok e rest q g k v F (kind_ok _ _ _ K) _ _ _ X4 V4 LV) as (m' & R & X5 & V5).
  exists m'. split; [eapply r_step; [exact ST2|exact R]|]. rewrite DB in X5. split; [exact X5|]. now rewrite <- Q.
Qed.

Lemma qual_ok (colon : bool) o r : mem o (L "=-+?") = true ->
  exists w0 w slen, (if colon then [CHAR; ":"%char] else []) ++ CHAR :: o :: r = w0 :: w /\ qualifier (w0 :: w) = Some (Some (colon, o), slen) /\ skipn slen (w0 :: w) = r /\ is_subop1 o = true /\ is_subop2 o = false.
Proof.
  intros H. assert (H1 : is_subop1 o = true) by exact H.
  assert (H2 : is_subop2 o = false /\ ceq o ":" = false).
  { assert (X : negb (is_subop2 o) && negb (ceq o ":") = true) by (clear H1; revert o H; apply sweep_imp; vm_compute; reflexivity).
    apply andb_true_iff in X as [X1 X2]. split; now apply negb_true_iff. }
  destruct H2 as [H2 H3]. destruct colon.
  - exists CHAR, (":"%char :: CHAR :: o :: r), 4%nat. cbn [app]. repeat split; auto. unfold qualifier. cbn [char_at skipn]. change (ceq CHAR CHAR) with true. cbv iota. change (ceq ":" ":") with true. cbv iota. rewrite H1. reflexivity.
  - exists CHAR, (o :: r), 2%nat. cbn [app]. repeat split; auto. unfold qualifier. cbn [char_at skipn]. change (ceq CHAR CHAR) with true. cbv iota. rewrite H3, H1. reflexivity.
Qed.

Lemma arith_view m s v : view m s -> forallb (fun c => negb (ismagic c)) v = true ->
  view (set_dp E (set_word E m WORD) (dp E m ++ v)) (irun bl s (Full :: map (fun c => Txt false (TQ c)) v)).
Proof.
  intros V. cbn [irun fold_left istep]. 
  assert (G : forall v m s, view m s -> iw s = WORD -> forallb (fun c => negb (ismagic c)) v = true -> view (set_dp E m (dp E m ++ v)) (fold_left (istep bl) (map (fun c => Txt false (TQ c)) v) s)).
  { clear. induction v as [|c v IH]; intros m s V W M.
    - cbn. rewrite app_nil_r. destruct m, V. constructor; auto.
    - cbn in M. apply andb_true_iff in M as [M1 M2]. apply negb_true_iff in M1. cbn [map fold_left].
      replace (set_dp E m (dp E m ++ c :: v)) with (set_dp E (set_dp E m (dp E m ++ [c])) (dp E (set_dp E m (dp E m ++ [c])) ++ v)).
      2: { destruct m. cbn. now rewrite <- app_assoc. }
      apply IH; auto. destruct V as [V1 V2 V3 V4 V5 V6]. destruct s as [wd cur dn]. cbn [iw] in W. subst wd.
      constructor; cbn [word dp fbrace fglob fmagic outs set_dp istep iw icur idone] in *; auto.
      + rewrite emits_app. cbn [emit fst]. rewrite M1. congruence.
      + unfold brace_seen. rewrite existsb_snoc, orb_false_r. exact V3.
      + rewrite existsb_snoc. cbn. now rewrite orb_false_r.
      + unfold brace_seen. rewrite !existsb_snoc. cbn [magic_tok]. rewrite M1, !orb_false_r. exact V5.
      + now rewrite app_nil_r. }
  intros M. apply (G v (set_word E m WORD) (I WORD (icur s) (idone s))); auto. destruct V. constructor; auto.
Qed.

(** the word of ${x-...} *)
Lemma open_word_ok m s e w q db g k slen var w1 colon o : ctx m e w XBASE q db g k -> same g -> view m s ->
  is_subop2 o = false -> ceq o "=" = false -> ceq o "?" = false ->
  exists m' bs g', open_word E y m (Some (colon, o)) slen var w1 = Next E m' /\
    ctx m' e (skipn slen w1) XBASE q db g' (Sub (Some (colon, o)) bs g var q :: k) /\ same g' /\ view m' (istep bl s (if q then Full else Alt)).
Proof.
  intros X F V O1 O2 O3. unfold open_word. cbn [op_of]. rewrite O1, O2, O3. cbv zeta.
  assert (DQ : match icur s with [] => dp E m = [] | _ => dp E m <> [] end).
  { rewrite (v_dp _ _ V). destruct (icur s); [reflexivity|]. intros Z. apply emits_nil in Z. discriminate. }
  destruct X as [X1 X2 X3 X4 X5 X6 X7]. destruct V as [V1 V2 V3 V4 V5 V6]. destruct m as [me msp mt mq md mb mg mm mw mdb mst msq u1 u2 mf mo].
  cbn [env sp ty quote dp fbrace fglob fmagic word doblank stk f outs set_sp set_stk set_word] in *. destruct s as [wd cur dn]. cbn [iw icur idone] in *.
  subst me msp mt mq mdb mf mst mw.
  eexists _, (to_short (Z.of_nat (length md))), (Expand_model.F (blank g) (glob g) (pat g) true (asn g) (dont g) (brace g) (temp g) (markd g)).
  split; [reflexivity|]. split; [|split; [exact F|]].
  - destruct q; [ctxs|]. destruct md; ctxs.
  - destruct q; cbn [istep icur idone].
    + constructor; auto.
    + destruct md; destruct cur; try (now destruct DQ); try discriminate DQ; constructor; auto.
Qed.

Ltac code_step X := unfold step; rewrite (x_ty _ _ _ _ _ _ _ _ X), (x_sp _ _ _ _ _ _ _ _ X).
Lemma sim p : forall q d e its e' rest m s db g k,
  sem y bl q d e p = Some (its, e') -> lexed p = true -> ctx m e (code p ++ rest) XBASE q db g k -> same g -> view m s -> dinv d db ->
  exists m', reach m m' /\ ctx m' e' rest XBASE (qend q p) db g k /\ view m' (irun bl s its).
Proof.
  induction p as [|c p IH|c p IH|l IHl p IHp|b n p IH|n colon o l IHl p IHp|t p IH|t p IH|c l IHl p IHp|p IH];
    intros q d e its e' rest m s db g k HS W X F V D; cbn [lexed] in W;
    repeat match goal with H : _ && _ = true |- _ => apply andb_true_iff in H as [? ?] end;
    repeat match goal with H : negb _ = true |- _ => apply negb_true_iff in H end; cbn [code] in X; rewrite <- ?app_comm_cons, <- ?app_assoc in X.
  - cbn in HS. injection HS as <- <-. exists m. split; [apply r_refl|]. auto.
  - cbn [sem] in HS. destruct (sem y bl q d e p) as [[a e1]|] eqn:Q; [|discriminate]. injection HS as <- <-.
    destruct (sp_ctx _ _ _ _ _ (code p ++ rest) _ _ _ _ X V) as [X1 V1].
    destruct (char_ok _ _ _ _ _ _ _ _ _ c q false (tk q c) X1 F V1) as (m1 & S1 & S2); auto using calls_tk.
    { intros _ Z. destruct q; [discriminate|]. injection Z as ->. discriminate. }
    assert (ST : step E y m = Next E m1). { code_step X. rewrite <- S1, <- (x_quote _ _ _ _ _ _ _ _ X). reflexivity. }
    assert (SQ : sep_at y bl q e c && d = negb q && bl && negb (db =? 0) && negb false && mem c (ifs y e)).
    { unfold sep_at. destruct D as [_ D]. destruct bl; [|now rewrite !andb_false_r]. rewrite D by auto. destruct q, (db =? 0), (mem c (ifs y e)); reflexivity. }
    rewrite SQ. cbn [app irun fold_left qend].
    destruct (negb q && bl && negb (db =? 0) && negb false && mem c (ifs y e)); destruct S2 as [X2 V2];
      destruct (IH _ _ _ _ _ _ _ _ _ _ _ Q ltac:(assumption) X2 F V2 D) as (m2 & R & X3 & V3); exists m2; (split; [eapply r_step; eauto|auto]).
  - cbn [sem] in HS. destruct (sem y bl q d e p) as [[a e1]|] eqn:Q; [|discriminate]. injection HS as <- <-.
    destruct (sp_ctx _ _ _ _ _ (code p ++ rest) _ _ _ _ X V) as [X1 V1].
    destruct (char_ok _ _ _ _ _ _ _ _ _ c true false (TQ c) X1 F V1) as (m1 & S1 & S2); auto; [cbn; auto|discriminate|].
    assert (ST : step E y m = Next E m1). { code_step X. rewrite <- S1. reflexivity. }
    cbn [negb andb] in S2. destruct S2 as [X2 V2].
    destruct (IH _ _ _ _ _ _ _ _ _ _ _ Q ltac:(assumption) X2 F V2 D) as (m2 & R & X3 & V3). exists m2. split; [eapply r_step; eauto|auto].
  - cbn [sem] in HS. destruct (sem y bl true d e l) as [[a e1]|] eqn:Q1; [|discriminate]. destruct (sem y bl false d e1 p) as [[a2 e2]|] eqn:Q2; [|discriminate]. injection HS as <- <-.
    destruct (sp_ctx _ _ _ _ _ (code l ++ (CQUOTE :: code p) ++ rest) _ _ _ _ X V) as [X1 V1].
    destruct (word_ctx _ _ _ _ _ (match iw s with QUOTE | WORD => WORD | _ => QUOTE end) _ _ _ _ X1 V1) as [X2 V2].
    set (m2 := set_word E _ _) in X2, V2. destruct (til_ctx _ _ _ _ _ (saw_eq E m2) false false _ _ _ _ X2 V2) as [X3 V3].
    destruct (quote_ctx _ _ _ _ _ true _ _ _ _ X3 V3) as [X4 V4].
    assert (ST : step E y m = Next E (set_quote E (set_til E m2 (saw_eq E m2) false false) true)).
    { code_step X. change (step E y m) with (step E y m). unfold m2. rewrite <- (v_word _ _ V). reflexivity. }
    destruct (IHl _ _ _ _ _ _ _ _ _ _ _ Q1 ltac:(assumption) X4 F V4 D) as (m5 & R5 & X5 & V5).
    rewrite <- app_comm_cons in X5. destruct (sp_ctx _ _ _ _ _ (code p ++ rest) _ _ _ _ X5 V5) as [X6 V6]. destruct (quote_ctx _ _ _ _ _ false _ _ _ _ X6 V6) as [X7 V7].
    assert (ST2 : step E y m5 = Next E (set_quote E (set_sp E m5 (code p ++ rest)) false)) by (code_step X5; reflexivity).
    destruct (IHp _ _ _ _ _ _ _ _ _ _ _ Q2 ltac:(assumption) X7 F V7 D) as (m8 & R8 & X8 & V8).
    exists m8. split; [eapply r_step; [exact ST|]; eapply reach_trans; [exact R5|]; eapply r_step; [exact ST2|exact R8]|]. split; [exact X8|].
    cbn [app]. change (Quo :: (a ++ [Unq]) ++ a2) with ([Quo] ++ (a ++ [Unq]) ++ a2). rewrite !irun_app. exact V8.
  - cbn [sem] in HS. destruct (kind y e n) as [v|] eqn:K; [|discriminate]. destruct (nounset y e && unset v && negb (special n)) eqn:NU; [discriminate|].
    destruct (sem y bl q d e p) as [[a e1]|] eqn:Q; [|discriminate]. injection HS as <- <-.
    rewrite <- !app_comm_cons in X.
    destruct (varsub_ok e n v CSUBST ((if b then "}" else "X")%char :: code p ++ rest) None 0 K) as [var VS]; auto; [now rewrite NU|].
    cbn [vbase] in VS.
    destruct (open_value _ _ _ _ _ _ _ (code p ++ rest) _ _ _ _ _ _ _ _ _ X F V D ltac:(assumption) K VS) as (m1 & R1 & X1 & V1); [now destruct b|].
    destruct (IH _ _ _ _ _ _ _ _ _ _ _ Q ltac:(assumption) X1 F V1 D) as (m2 & R & X3 & V3). exists m2. split; [eapply reach_trans; eauto|]. split; auto.
    now rewrite irun_app.
  - cbn [sem] in HS. destruct (kind y e n) as [v|] eqn:K; [|discriminate].
    rewrite <- !app_comm_cons in X.
    assert (OC : mem o (L "=-+?") = true).
    { destruct (mem o (L "-+")) eqn:O1; [|destruct (mem o (L "?=")) eqn:O2; [|discriminate]]; [revert O1|revert O2]; clear; revert o; apply sweep_imp; vm_compute; reflexivity. }
    rewrite <- !app_assoc, <- !app_comm_cons, <- app_assoc in X.
    destruct (qual_ok colon o (code l ++ (CSUBST :: "}"%char :: code p) ++ rest) OC) as (w0 & w & slen & EQ & QQ & SK & S1 & S2).
    rewrite EQ in X.
    assert (WD : wdscan (w0 :: w) CSUBST = WAt (code p ++ rest)).
    { rewrite <- EQ. unfold wdscan.
      assert (Z : forall r, scan MCode 0 CSUBST ((if colon then [CHAR; ":"%char] else []) ++ CHAR :: o :: r) = scan MCode 0 CSUBST r) by (intros r; now destruct colon).
      rewrite Z, scan_code by (auto; lia). reflexivity. }
    (* the value *)
    assert (VAL : forall r, match sem y bl q d e p with Some (i, e1) => Some (subst y bl q e v ++ i, e1) | None => None end = Some (its, e') ->
      vbase (Some (colon, o)) v = false -> (ceq o "=" = true -> special n = false /\ exists x, v = Scalar x /\ match n with c :: _ => mem c (L "*@#!$-?") || isdigit c | [] => true end = false) ->
      (ceq o "?" = true -> special n = true \/ exists x, v = Scalar x) ->
      nounset y e && unset v && negb (special n) && negb (ceq o "+") = false -> r = 0 ->
      exists m', reach m m' /\ ctx m' e' rest XBASE (qend q p) db g k /\ view m' (irun bl s its)).
    { intros r HS2 VB CE CQ NU _. destruct (sem y bl q d e p) as [[a e1]|] eqn:Q; [|discriminate]. injection HS2 as <- <-.
      destruct (varsub_ok e n v w0 w (Some (colon, o)) slen K QQ) as [var VS]; auto.
      - rewrite VB. cbn [op_of negb andb]. exact NU.
      - rewrite VB in VS. destruct (open_value _ _ _ _ _ _ _ _ _ _ _ _ _ _ _ _ _ X F V D ltac:(assumption) K VS WD) as (m1 & R1 & X1 & V1).
        destruct (IHp _ _ _ _ _ _ _ _ _ _ _ Q ltac:(assumption) X1 F V1 D) as (m2 & R & X3 & V3). exists m2. split; [eapply reach_trans; eauto|]. split; auto.
        now rewrite irun_app. }
    destruct (mem o (L "-+")) eqn:O1.
    + assert (OE : ceq o "=" = false /\ ceq o "?" = false).
      { assert (Z : negb (ceq o "=") && negb (ceq o "?") = true) by (revert O1; clear; revert o; apply sweep_imp; vm_compute; reflexivity).
        apply andb_true_iff in Z as [Z1 Z2]. split; now apply negb_true_iff. }
      destruct OE as [OE1 OE2].
      assert (OM : ceq o "-" = negb (ceq o "+")).
      { apply eqb_prop. revert O1. clear. revert o. apply sweep_imp. vm_compute. reflexivity. }
      assert (VBX : vbase (Some (colon, o)) v = xorb (ceq o "+") (missing colon v)).
      { cbn [vbase]. rewrite OE1, OE2, OM. destruct (missing colon v), (ceq o "+"); reflexivity. }
      destruct (xorb (ceq o "+") (missing colon v)) eqn:AL.
      * destruct (sem y bl q true e l) as [[a e1]|] eqn:Q1; [|discriminate]. destruct (sem y bl q d e1 p) as [[a2 e2]|] eqn:Q2; [|discriminate]. injection HS as <- <-.
        destruct (varsub_ok e n v w0 w (Some (colon, o)) slen K QQ) as [var VS]; auto; [rewrite OE1; discriminate|rewrite OE2; discriminate|rewrite VBX; cbn; now rewrite andb_false_r|].
        rewrite VBX in VS. destruct (up_live _ _ D) as (LV & DU & DB).
        pose proof (code_osubst _ _ _ _ _ _ _ _ X eq_refl) as ST. destruct (sp_ctx _ _ _ _ _ ("{"%char :: n ++ NUL :: w0 :: w) _ _ _ _ X V) as [X0 V0].
        set (m0 := set_sp E m _) in *. clearbody m0. unfold open_sub in ST. rewrite (x_sp _ _ _ _ _ _ _ _ X0), (x_env _ _ _ _ _ _ _ _ X0) in ST.
        rewrite to_nul_ok in ST by auto. rewrite VS in ST. destruct (began_ok _ _ _ _ _ XBASE _ _ _ _ X0 F V0) as [X1 V1]. cbv zeta in ST.
        set (m1 := began E m0 XBASE) in *. clearbody m1.
        destruct (open_word_ok _ _ _ _ _ _ _ _ slen var (w0 :: w) colon o X1 F V1 S2 OE1 OE2) as (m7 & bs & g' & ST7 & X7 & Fg' & V7). rewrite ST7 in ST. rewrite SK in X7. clear ST7.
        set (kk := Sub (Some (colon, o)) bs g var q :: k) in *.
        destruct (IHl _ _ _ _ _ _ _ _ _ _ _ Q1 ltac:(assumption) X7 Fg' V7 DU) as (m8 & R8 & X8 & V8).
        rewrite <- !app_comm_cons in X8.
        destruct (sp_ctx _ _ _ _ _ (code p ++ rest) _ _ _ _ X8 V8) as [X9 V9].
        destruct (til_ctx _ _ _ _ _ (saw_eq E m8) false false _ _ _ _ X9 V9) as [X10 V10].
        destruct (quote_ctx _ _ _ _ _ q _ _ _ _ X10 V10) as [X11 V11]. destruct (f_ctx _ _ _ _ _ g _ _ _ _ X11 V11) as [X12 V12].
        destruct (down_ctx _ _ _ _ _ _ _ _ _ X12 F V12) as [X13 V13]. rewrite DB in X13.
        destruct (stk_ctx _ _ _ _ _ k _ _ _ _ X13 V13) as [X14 V14]. destruct (ty_ctx _ _ _ _ _ XBASE _ _ _ _ X14 V14) as [X15 V15].
        set (m15 := set_ty E _ XBASE) in X15, V15.
        assert (ST2 : step E y m8 = Next E m15).
        { assert (CS : step E y m8 = close_sub E y (set_sp E m8 ("}"%char :: code p ++ rest))) by (code_step X8; reflexivity). rewrite CS.
          unfold close_sub. cbn [sp set_sp stk]. rewrite (x_stk _ _ _ _ _ _ _ _ X8). unfold kk at 1. cbn [s_type s_quote s_f op_of s_base]. rewrite S2, OE1, OE2. unfold m15, no_tilde. destruct m8. reflexivity. }
        destruct (IHp _ _ _ _ _ _ _ _ _ _ _ Q2 ltac:(assumption) X15 F V15 D) as (m16 & R16 & X16 & V16).
        exists m16. split; [eapply r_step; [exact ST|]; eapply reach_trans; [exact R8|]; eapply r_step; [exact ST2|exact R16]|]. split; [exact X16|].
        change (Begin :: (if q then Full else Alt) :: a ++ a2) with ([Begin; if q then Full else Alt] ++ a ++ a2). rewrite !irun_app. exact V16.
      * apply (VAL 0); auto; try (rewrite OE1; discriminate); try (rewrite OE2; discriminate).
        destruct (ceq o "+") eqn:PL; [now rewrite andb_false_r|]. cbn [xorb] in AL.
        replace (unset v) with false; [now rewrite andb_false_r|]. destruct v as [[|]|? [|]]; cbn in AL |- *; auto; discriminate.
    + destruct (mem o (L "?=")) eqn:O2; [|discriminate]. destruct (missing colon v) eqn:MS; [discriminate|].
      destruct (ceq o "=" && _) eqn:C1 in HS; [discriminate|]. destruct (ceq o "?" && _ && _) eqn:C2 in HS; [discriminate|].
      assert (PL : ceq o "+" = false).
      { apply negb_true_iff. revert O2. clear. revert o. apply sweep_imp. vm_compute. reflexivity. }
      apply (VAL 0); auto.
      * cbn [vbase]. rewrite MS. exact PL.
      * intros Z. rewrite Z in C1. cbn [andb] in C1. apply orb_false_iff in C1 as [C3 C4]. split; auto. destruct v as [x|]; [|discriminate]. exists x. auto.
      * intros Z. rewrite Z in C2. cbn [andb] in C2. destruct (special n); auto. right. destruct v as [x|]; [eauto|discriminate].
      * replace (unset v) with false; [now rewrite andb_false_r|]. destruct v as [[|]|? [|]]; cbn in MS |- *; auto; discriminate.
  - cbn [sem] in HS. destruct (command y e t) as [[e1 out]|] eqn:C; [|discriminate]. rewrite <- ?app_comm_cons in X.
    pose proof (proj1 (proj2 (proj2 (proj2 F)))) as FD.
    assert (CODE : step E y m = match out with None => Next E (set_sp E (set_env E (no_tilde E (set_sp E m (t ++ NUL :: code p ++ rest))) e1) (code p ++ rest))
       | Some o => Next E (set_sp E (set_ty E (up E (set_env E (no_tilde E (set_sp E m (t ++ NUL :: code p ++ rest))) e1)) (XCOM 0 o)) (code p ++ rest)) end).
    { code_step X. change (ceq COMSUB EOS) with false. change (ceq COMSUB CHAR) with false. change (ceq COMSUB QCHAR) with false. change (ceq COMSUB OQUOTE) with false.
      change (ceq COMSUB CQUOTE) with false. change (ceq COMSUB COMSUB) with true. cbv iota. rewrite to_nul_ok by auto. unfold no_tilde. cbn [f set_til set_sp env].
      rewrite (x_f _ _ _ _ _ _ _ _ X), FD, (x_env _ _ _ _ _ _ _ _ X), C. reflexivity. }
    destruct (sp_ctx _ _ _ _ _ (t ++ NUL :: code p ++ rest) _ _ _ _ X V) as [X1 V1]. destruct (til_ctx _ _ _ _ _ (saw_eq E m) false false _ _ _ _ X1 V1) as [X2 V2].
    change (set_til E (set_sp E m (t ++ NUL :: code p ++ rest)) (saw_eq E m) false false) with (no_tilde E (set_sp E m (t ++ NUL :: code p ++ rest))) in X2, V2.
    destruct (env_ctx _ _ _ _ _ e1 _ _ _ _ X2 V2) as [X3 V3]. destruct out as [o|].
    + destruct (sem y bl q d e1 p) as [[a e2]|] eqn:Q; [|discriminate]. injection HS as <- <-.
      destruct (up_live _ _ D) as (LV & _ & DB).
      destruct (up_ctx _ _ _ _ _ _ _ _ _ X3 F V3) as [X4 V4]. destruct (ty_ctx _ _ _ _ _ (XCOM 0 o) _ _ _ _ X4 V4) as [X5 V5].
      destruct (sp_ctx _ _ _ _ _ (code p ++ rest) _ _ _ _ X5 V5) as [X6 V6].
      destruct (xcom_ok _ _ _ _ _ F _ o _ _ _ (Nat.le_refl _) X6 V6 LV) as (m7 & R7 & X7 & V7). rewrite DB in X7.
      destruct (IH _ _ _ _ _ _ _ _ _ _ _ Q ltac:(assumption) X7 F V7 D) as (m8 & R8 & X8 & V8).
      exists m8. split; [eapply r_step; [exact CODE|]; eapply reach_trans; eauto|]. split; auto. now rewrite irun_app.
    + destruct (sp_ctx _ _ _ _ _ (code p ++ rest) _ _ _ _ X3 V3) as [X4 V4].
      destruct (IH _ _ _ _ _ _ _ _ _ _ _ HS ltac:(assumption) X4 F V4 D) as (m8 & R8 & X8 & V8).
      exists m8. split; [eapply r_step; [exact CODE|exact R8]|]. auto.
  - cbn [sem] in HS. destruct (arith y e t) as [[e1 v]|] eqn:C; [|discriminate]. destruct (sem y bl q d e1 p) as [[a e2]|] eqn:Q; [|discriminate]. injection HS as <- <-.
    rewrite <- ?app_comm_cons in X. pose proof (proj1 (proj2 (proj2 (proj2 F)))) as FD.
    assert (NM : forallb (fun c => negb (ismagic c)) v = true).
    { assert (Z : forallb (fun c => negb (ismagic c) && negb (is_nul c)) v = true) by (eapply Y; eauto). rewrite forallb_forall in *. intros x Hx. specialize (Z x Hx). now apply andb_true_iff in Z. }
    destruct (sp_ctx _ _ _ _ _ (code p ++ rest) _ _ _ _ X V) as [X1 V1]. destruct (til_ctx _ _ _ _ _ (saw_eq E m) false false _ _ _ _ X1 V1) as [X2 V2].
    destruct (env_ctx _ _ _ _ _ e1 _ _ _ _ X2 V2) as [X3 V3]. pose proof (arith_view _ _ v V3 NM) as V4.
    set (m3 := set_env E _ e1) in *. set (m4 := set_dp E _ _) in V4.
    assert (X4 : ctx m4 e1 (code p ++ rest) XBASE q db g k) by (destruct X3; constructor; auto).
    assert (ST : step E y m = Next E m4).
    { code_step X. change (ceq EXPRSUB EOS) with false. change (ceq EXPRSUB CHAR) with false. change (ceq EXPRSUB QCHAR) with false. change (ceq EXPRSUB OQUOTE) with false.
      change (ceq EXPRSUB CQUOTE) with false. change (ceq EXPRSUB COMSUB) with false. change (ceq EXPRSUB EXPRSUB) with true. cbv iota. rewrite to_nul_ok by auto. unfold no_tilde. cbn [f set_til set_sp env set_word].
      rewrite (x_f _ _ _ _ _ _ _ _ X), FD, (x_env _ _ _ _ _ _ _ _ X), C. unfold m4, m3. reflexivity. }
    destruct (IH _ _ _ _ _ _ _ _ _ _ _ Q ltac:(assumption) X4 F V4 D) as (m8 & R8 & X8 & V8).
    exists m8. split; [eapply r_step; [exact ST|exact R8]|]. split; auto. rewrite app_comm_cons. now rewrite irun_app.
  - cbn [sem] in HS. destruct (sem y bl q d e l) as [[a e1]|] eqn:Q1; [|discriminate]. destruct (sem y bl (qend q l) d e1 p) as [[a2 e2]|] eqn:Q2; [|discriminate]. injection HS as <- <-.
    destruct (sp_ctx _ _ _ _ _ (code l ++ (CPAT :: code p) ++ rest) _ _ _ _ X V) as [X1 V1].
    assert (HN : is_nul (hi_of c) = false). { apply negb_true_iff. clear X X1. revert c H. apply sweep_imp. vm_compute. reflexivity. }
    destruct (char_ok _ _ _ _ _ _ _ _ _ (hi_of c) q true (TOpen c) X1 F V1 HN) as (m1 & S1 & S2); [cbn; auto|discriminate|].
    cbn [negb] in S2. rewrite !andb_false_r in S2. destruct S2 as [X2 V2].
    assert (ST : step E y m = Next E m1). { code_step X. rewrite <- S1, <- (x_quote _ _ _ _ _ _ _ _ X). reflexivity. }
    destruct (IHl _ _ _ _ _ _ _ _ _ _ _ Q1 ltac:(assumption) X2 F V2 D) as (m3 & R3 & X3 & V3).
    rewrite <- app_comm_cons in X3. destruct (sp_ctx _ _ _ _ _ (code p ++ rest) _ _ _ _ X3 V3) as [X4 V4].
    destruct (char_ok _ _ _ _ _ _ _ _ _ ")"%char (qend q l) true TClose X4 F V4 eq_refl) as (m5 & S5 & S6); [cbn; auto|discriminate|].
    cbn [negb] in S6. rewrite !andb_false_r in S6. destruct S6 as [X6 V6].
    assert (ST2 : step E y m3 = Next E m5). { code_step X3. rewrite <- S5, <- (x_quote _ _ _ _ _ _ _ _ X3). reflexivity. }
    destruct (IHp _ _ _ _ _ _ _ _ _ _ _ Q2 ltac:(assumption) X6 F V6 D) as (m7 & R7 & X7 & V7).
    exists m7. split; [eapply r_step; [exact ST|]; eapply reach_trans; [exact R3|]; eapply r_step; [exact ST2|exact R7]|]. split; [exact X7|].
    change (Txt false (TOpen c) :: (a ++ [Txt false TClose]) ++ a2) with ([Txt false (TOpen c)] ++ (a ++ [Txt false TClose]) ++ a2). rewrite !irun_app. exact V7.
  - cbn [sem] in HS. destruct (sem y bl q d e p) as [[a e1]|] eqn:Q; [|discriminate]. injection HS as <- <-.
    destruct (sp_ctx _ _ _ _ _ (code p ++ rest) _ _ _ _ X V) as [X1 V1].
    destruct (char_ok _ _ _ _ _ _ _ _ _ "|"%char q true TBar X1 F V1 eq_refl) as (m1 & S1 & S2); [cbn; auto|discriminate|].
    assert (ST : step E y m = Next E m1). { code_step X. rewrite <- S1, <- (x_quote _ _ _ _ _ _ _ _ X). reflexivity. }
    cbn [negb] in S2. rewrite !andb_false_r in S2. destruct S2 as [X2 V2].
    destruct (IH _ _ _ _ _ _ _ _ _ _ _ Q ltac:(assumption) X2 F V2 D) as (m2 & R & X3 & V3). exists m2. split; [eapply r_step; eauto|auto].
Qed.

Lemma expand_sim p e its e' rest : sem y bl false false e p = Some (its, e') -> lexed p = true -> dont fl = false ->
  exists n m', run E y n (St E e (code p ++ EOS :: rest) XBASE false [] false false false (if blank fl then WS else WORD) 0 [] false (dotilde fl || asn fl) false fl []) = Done E m' /\
    env E m' = e' /\ outs E m' = map (raw_of fl) (ifinish (irun bl (I (if bl then WS else WORD) [] []) its)).
Proof.
  intros HS W DN. set (m := St E _ _ _ _ _ _ _ _ _ _ _ _ _ _ _ _).
  assert (X : ctx m e (code p ++ EOS :: rest) XBASE false 0 fl []) by (constructor; reflexivity).
  assert (F : same fl) by (repeat split; auto).
  assert (V : view m (I (if bl then WS else WORD) [] [])) by (constructor; cbn; rewrite ?andb_false_r; reflexivity).
  assert (D : dinv false 0) by (split; [lia|reflexivity]).
  destruct (sim p _ _ _ _ _ _ _ _ _ _ _ HS W X F V D) as (m1 & R & X1 & V1).
  destruct (sp_ctx _ _ _ _ _ rest _ _ _ _ X1 V1) as [X2 V2]. destruct (done_ok _ _ _ _ _ _ _ _ _ X2 F V2) as (m2 & S2 & E2 & O2).
  destruct (reach_run _ _ R) as (n & RN). exists (n + 1)%nat, m2. split; [|auto]. rewrite RN. cbn [run].
  assert (ST : step E y m1 = Done E m2). { unfold step. rewrite (x_ty _ _ _ _ _ _ _ _ X1), (x_sp _ _ _ _ _ _ _ _ X1). exact S2. }
  now rewrite ST.
Qed.
End Sim.
