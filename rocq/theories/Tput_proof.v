(** Printed words are read back. *)
From Verif Require Import Base Word_model Word_spec Src_model Src_spec Src_proof Src_props Lex_model Lex_sim Lex_spec Lex_props Tput_model Tput_spec.
Local Open Scope nat_scope.

Scheme ok_mut := Induction for ok Sort Prop with okp_mut := Induction for okp Sort Prop.

(** ** Characters *)
Lemma tputC_ok c : printable c = true -> tputC c = [c].
Proof. revert c. intros [[] [] [] [] [] [] [] []]; vm_compute; intros H; try discriminate H; reflexivity. Qed.
Lemma tputC_oks s : printables s = true -> flat_map tputC s = s.
Proof. induction s as [|c s IH]; [reflexivity|]. cbn. intros H. apply andb_prop in H as (A & B). rewrite tputC_ok, IH; auto. Qed.
Lemma printable_nul c : printable c = true -> c <> NUL /\ c <> NL /\ c <> TAB.
Proof. intros H. repeat split; intros ->; discriminate. Qed.
Lemma mem_no c l : mem c l = false -> forall e, In e l -> ceq c e = false.
Proof. intros H e I. apply ceq_false. intros ->. apply mem_false in H. auto. Qed.

Definition st (x : ctx) : lst := match x with CBase => SBASE | CBrace => SBRACE | CBraceQ => SBRACEQ | CTrim => STBRACE | CPat => SPATTERN end.
Definition dst (d : bool) (x : ctx) (stk : list lst) : list lst := if d then SDQUOTE :: st x :: stk else st x :: stk.

(** ** Reading a character of a text without line ends *)
Lemma fget_c c t k {A} (g : char -> prog A) l : (c = "\"%char -> hd_error t <> Some NL) ->
  exists k', frun (Get g) (Flat (c :: t) k 0) l = frun (g c) (Flat t k' 0) (Some c) /\ (c <> "\"%char -> ord k') /\ (c = "\"%char -> ord k -> k' = 1).
Proof.
  intros H. destruct (Nat.eq_dec k 1) as [->|K].
  - exists 2. rewrite fget_esc. split; [reflexivity|]. split; [discriminate|intros _ []; reflexivity].
  - destruct (ceq_spec c "\"%char) as [->|N].
    + exists 1. split; [|split; congruence]. destruct t as [|d t].
      * cbn [frun]. unfold fget. cbn [fign fskip ftext]. change (0 <? 0) with false. cbn iota. destruct (Nat.eqb_spec k 1); [contradiction|]. reflexivity.
      * rewrite fget_bs; auto. intros ->. apply (H eq_refl). reflexivity.
    + exists 0. rewrite fget_plain; auto. split; [reflexivity|]. split; [discriminate|congruence].
Qed.
Lemma loop_c n cf c stk out t k l : c <> NUL -> (base_like (top stk) = true -> lex1 c = false) -> (c = "\"%char -> hd_error t <> Some NL) ->
  exists k', ((c <> "\"%char -> ord k') /\ (c = "\"%char -> ord k -> k' = 1)) /\ frun (loop (S n) cf stk out) (Flat (c :: t) k 0) l =
  match frun (step n cf c stk out) (Flat t k' 0) (Some c) with
  | Some (inl (Cont stk out), f, l) => frun (loop n cf stk out) f l
  | Some (inl (Stop c stk out), f, l) => Some (inl (c, stk, out), f, l)
  | Some (inr e, f, l) => Some (inr e, f, l)
  | None => None
  end.
Proof.
  intros N B H. rewrite loop_S. destruct (fget_c c t k (fun c0 => if is_nul c0 || (base_like (top stk) && lex1 c0) then Ret (c0, stk, out)
    else bind (step n cf c0 stk out) (fun r => match r with Cont stk out => loop n cf stk out | Stop c stk out => Ret (c, stk, out) end)) l H) as (k' & E & K).
  exists k'. split; [auto|]. rewrite E. rewrite is_nul_no by auto. cbn [orb].
  assert (base_like (top stk) && lex1 c = false) as -> by (destruct (base_like (top stk)); [apply B; auto|auto]).
  rewrite frun_bind. destruct (frun (step n cf c stk out) (Flat t k' 0) (Some c)) as [[[[r|e] f] l2]|]; [|reflexivity..]. destruct r; reflexivity.
Qed.

(** ** $( ... ) *)
Definition csn (m : quoting) : nat := match m with QNone => 0 | QBack => 1 | QDouble => 2 | QDback => 3 | QSingle => 4 end.
Definition csi (m : quoting) : nat := match m with QSingle => 1 | _ => 0 end.
Lemma loop_com s : forall n cf d m out stk rest k l, printables s = true -> closed d m s = true -> length s < n ->
  exists k' l', ord k' /\ frun (loop n cf (SCSPAREN (S d) (csn m) :: stk) out) (Flat (s ++ ")"%char :: rest) k (csi m)) l =
    frun (loop (n - S (length s)) cf stk (out ++ s ++ [NUL])) (Flat rest k' 0) l'.
Proof.
  induction s as [|c s IH]; intros n cf d m out stk rest k l P C H; (destruct n as [|n]; [cbn in H; lia|]).
  - cbn in C. apply andb_prop in C as (D & M). apply Nat.eqb_eq in D. subst. destruct m; try discriminate.
    cbn [app csi csn]. destruct (loop_c n cf ")"%char (SCSPAREN 1 0 :: stk) out rest k l) as (k' & K & E); try discriminate.
    rewrite E. cbn. rewrite Nat.sub_0_r. exists k'. eexists. split; [apply K; discriminate|reflexivity].
  - cbn [printables forallb] in P. apply andb_prop in P as (P1 & P2). cbn [length] in H. destruct (printable_nul c P1) as (N1 & N2 & _).
    assert (c = "\"%char -> hd_error (s ++ ")"%char :: rest) <> Some NL) as HN.
    { intros _. destruct s as [|e s]; cbn; [discriminate|]. cbn in P2. apply andb_prop in P2 as (P2 & _). apply printable_nul in P2. intros [= E]. tauto. }
    cbn [app]. assert (forall m' d' k2 l2, closed d' m' s = true -> exists k' l', ord k' /\ frun (loop n cf (SCSPAREN (S d') (csn m') :: stk) (out ++ [c])) (Flat (s ++ ")"%char :: rest) k2 (csi m')) l2 =
      frun (loop (S n - S (length (c :: s))) cf stk (out ++ (c :: s) ++ [NUL])) (Flat rest k' 0) l') as GO.
    { intros m' d' k2 l2 C'. destruct (IH n cf d' m' (out ++ [c]) stk rest k2 l2) as (k' & l' & K & E); auto; [lia|]. exists k', l'. split; [auto|]. rewrite E. cbn [length Nat.sub app]. now rewrite <- app_assoc. }
    destruct m; cbn [csn csi] in *.
    + destruct (loop_c n cf c (SCSPAREN (S d) 0 :: stk) out (s ++ ")"%char :: rest) k l) as (k' & K & E); auto; [discriminate|]. rewrite E. clear E. cbn [step]. cbn [closed] in C.
      destruct (ceq c "(") eqn:E1; [cbn [frun cont Nat.eqb]; apply (GO QNone); auto|].
      destruct (ceq c ")") eqn:E2; [destruct d as [|d]; [discriminate|]; cbn [frun cont Nat.eqb pred]; apply (GO QNone); auto|].
      destruct (ceq c "\") eqn:E3; [cbn [frun cont Nat.eqb]; apply (GO QBack); auto|].
      destruct (ceq c """") eqn:E4; [cbn [frun cont Nat.eqb]; apply (GO QDouble); auto|].
      destruct (ceq c "'") eqn:E5; cbn [frun cont Nat.eqb ftext fskip fign]; [apply (GO QSingle)|apply (GO QNone)]; auto.
    + destruct (loop_c n cf c (SCSPAREN (S d) 1 :: stk) out (s ++ ")"%char :: rest) k l) as (k' & K & E); auto; [discriminate|]. rewrite E. clear E. cbn [step]. cbn [closed] in C.
      cbn [frun cont Nat.eqb]. apply (GO QNone); auto.
    + destruct (loop_c n cf c (SCSPAREN (S d) 2 :: stk) out (s ++ ")"%char :: rest) k l) as (k' & K & E); auto; [discriminate|]. rewrite E. clear E. cbn [step]. cbn [closed] in C.
      destruct (ceq c """"); [cbn [frun cont Nat.eqb]; apply (GO QNone); auto|]. destruct (ceq c "\"); cbn [frun cont Nat.eqb]; [apply (GO QDback)|apply (GO QDouble)]; auto.
    + destruct (loop_c n cf c (SCSPAREN (S d) 3 :: stk) out (s ++ ")"%char :: rest) k l) as (k' & K & E); auto; [discriminate|]. rewrite E. clear E. cbn [step]. cbn [closed] in C.
      cbn [frun cont Nat.eqb]. apply (GO QDouble); auto.
    + rewrite loop_S, fget_raw. rewrite is_nul_no by auto. cbn [top base_like andb orb]. rewrite frun_bind. cbn [step]. cbn [closed] in C.
      destruct (ceq c "'"); cbn [frun cont Nat.eqb ftext fskip fign pred]; [apply (GO QNone)|apply (GO QSingle)]; auto.
Qed.

(** ** $(( ... )) *)
Lemma loop_exp s : forall n cf d a out stk rest k l, printables s = true -> balanced d s = true -> length s < n ->
  exists k' l', ord k' /\ frun (loop n cf (SASPAREN (S (S d)) a :: stk) out) (Flat (s ++ ")"%char :: ")"%char :: rest) k 0) l =
    frun (loop (n - S (length s)) cf stk (out ++ s ++ [NUL])) (Flat rest k' 0) l'.
Proof.
  induction s as [|c s IH]; intros n cf d a out stk rest k l P C H; (destruct n as [|n]; [cbn in H; lia|]).
  - cbn in C. apply Nat.eqb_eq in C. subst. cbn [app].
    destruct (loop_c n cf ")"%char (SASPAREN 2 a :: stk) out (")"%char :: rest) k l) as (k' & K & E); try discriminate.
    rewrite E. cbn [step Nat.eqb pred]. change (ceq ")" "(") with false. change (ceq ")" ")") with true. cbn iota. rewrite frun_bind. unfold get.
    destruct (fget_c ")"%char rest k' (fun c => Ret c) (Some ")"%char)) as (k2 & E2 & K2); [discriminate|]. rewrite E2. cbn [frun]. change (ceq ")" ")") with true. cbn iota. cbn [frun cont length app Nat.sub]. rewrite Nat.sub_0_r.
    exists k2. eexists. split; [apply K2; discriminate|reflexivity].
  - cbn [printables forallb] in P. apply andb_prop in P as (P1 & P2). cbn [length] in H. destruct (printable_nul c P1) as (N1 & N2 & _).
    assert (c = "\"%char -> hd_error (s ++ ")"%char :: ")"%char :: rest) <> Some NL) as HN.
    { intros _. destruct s as [|e s]; cbn; [discriminate|]. cbn in P2. apply andb_prop in P2 as (P2 & _). apply printable_nul in P2. intros [= E]. tauto. }
    cbn [app]. destruct (loop_c n cf c (SASPAREN (S (S d)) a :: stk) out (s ++ ")"%char :: ")"%char :: rest) k l) as (k' & K & E); auto; [discriminate|]. rewrite E. clear E.
    assert (forall d' k2 l2, balanced d' s = true -> exists k' l', ord k' /\ frun (loop n cf (SASPAREN (S (S d')) a :: stk) (out ++ [c])) (Flat (s ++ ")"%char :: ")"%char :: rest) k2 0) l2 =
      frun (loop (S n - S (length (c :: s))) cf stk (out ++ (c :: s) ++ [NUL])) (Flat rest k' 0) l') as GO.
    { intros d' k2 l2 C'. destruct (IH n cf d' a (out ++ [c]) stk rest k2 l2) as (k1 & l' & K1 & E); auto; [lia|]. exists k1, l'. split; [auto|]. rewrite E. cbn [length Nat.sub app]. now rewrite <- app_assoc. }
    cbn [step]. cbn [balanced] in C. destruct (ceq c "("); [cbn [frun cont]; apply GO; auto|]. destruct (ceq c ")"); [|cbn [frun cont]; apply GO; auto].
    destruct d as [|d]; [discriminate|]. cbn [pred Nat.eqb frun cont]. apply GO; auto.
Qed.

(** ** Names *)
Lemma name_letter c : name_start c = letter c.
Proof. reflexivity. Qed.
Lemma name_letnum c : name_char c = letnum c.
Proof. reflexivity. Qed.
Lemma peek_unget t k l (p : char -> prog (cstr)) (q : prog cstr) : ord k -> peekable t -> t <> [] -> (forall c, hd_error t = Some c -> p c = Unget c q) ->
  frun (Get p) (Flat t k 0) l = frun q (Flat t 0 0) None.
Proof. intros K P N H. apply peek_back; auto. intros ->. congruence. Qed.
Lemma dname_ok s : forall n c acc t k l, letnum c = true -> forallb letnum s = true -> length s < n -> ord k -> peekable t -> t <> [] -> (forall e, hd_error t = Some e -> letnum e = false) ->
  frun (Lex_model.dollar_name n c acc) (Flat (s ++ t) k 0) l = Some (inl (acc ++ c :: s), Flat t 0 0, None).
Proof.
  induction s as [|e s IH]; intros n c acc t k l C F H K P N T; (destruct n as [|n]; [cbn in H; lia|]); cbn [Lex_model.dollar_name]; unfold get; cbn [bind].
  - cbn [app]. rewrite (peek_unget t k l _ (Ret (acc ++ [c]))); auto. intros e E. now rewrite (T e E).
  - cbn [forallb] in F. apply andb_prop in F as (F1 & F2). cbn [app]. rewrite fget_plain; [|auto|intros ->; discriminate]. rewrite F1. cbn [length] in H. rewrite IH; auto; [|lia|discriminate]. now rewrite <- app_assoc.
Qed.
Lemma asub_ok s : forall n d acc t k l, printables s = true -> brackets d s = true -> length s < n ->
  exists k', ord k' /\ frun (arraysub n (S d) acc) (Flat (s ++ "]"%char :: t) k 0) l = Some (inl (true, acc ++ s ++ L "]"), Flat t k' 0, Some "]"%char).
Proof.
  induction s as [|c s IH]; intros n d acc t k l P B H; (destruct n as [|n]; [cbn in H; lia|]); cbn [arraysub]; unfold get; cbn [bind app].
  - cbn in B. apply Nat.eqb_eq in B. subst. match goal with |- context [frun (Get ?g) _ _] => destruct (fget_c "]"%char t k g l) as (k' & E & K) end; [discriminate|]. exists k'. split; [apply K; discriminate|]. rewrite E. reflexivity.
  - cbn [printables forallb] in P. apply andb_prop in P as (P1 & P2). cbn [length] in H. destruct (printable_nul c P1) as (N1 & N2 & _).
    match goal with |- context [frun (Get ?g) _ _] => destruct (fget_c c (s ++ "]"%char :: t) k g l) as (k' & E & K) end.
    { intros _. destruct s as [|e s]; cbn; [discriminate|]. cbn in P2. apply andb_prop in P2 as (P2 & _). apply printable_nul in P2. intros [= E]. tauto. }
    rewrite E. clear E. cbn [brackets] in B. rewrite is_nul_no, (ceq_no c NL) by auto.
    assert (forall d', brackets d' s = true -> exists k'0 : nat, ord k'0 /\ frun (if Nat.eqb (S d') 0 then Ret (true, acc ++ [c]) else arraysub n (S d') (acc ++ [c])) (Flat (s ++ "]"%char :: t) k' 0) (Some c) = Some (inl (true, acc ++ (c :: s) ++ L "]"), Flat t k'0 0, Some "]"%char)) as GO.
    { intros d' B'. cbn [Nat.eqb]. destruct (IH n d' (acc ++ [c]) t k' (Some c)) as (k2 & K2 & E); auto; [lia|]. exists k2. split; [auto|]. rewrite E. cbn [app]. now rewrite <- app_assoc. }
    destruct (ceq c "["); [apply GO; auto|]. destruct (ceq c "]"); [|apply GO; auto]. destruct d; [discriminate|]. apply GO; auto.
Qed.
Lemma peek1 c t : c <> NUL -> c <> "\"%char -> peekable (c :: t).
Proof. intros. split; [auto|congruence]. Qed.
Lemma gbv_ident s : forall n acc c t k l, forallb letnum s = true -> letnum c = false -> c <> "["%char -> c <> NUL -> c <> "\"%char -> length s < n -> ord k ->
  frun (get_brace_var n PS_IDENT acc) (Flat (s ++ c :: t) k 0) l = Some (inl (acc ++ s ++ [NUL]), Flat (c :: t) 0 0, None).
Proof.
  induction s as [|e s IH]; intros n acc c t k l F C1 C2 C3 C4 H K; (destruct n as [|n]; [cbn in H; lia|]); cbn [get_brace_var]; unfold get; cbn [bind app].
  - rewrite (peek_unget (c :: t) k l _ (Ret (acc ++ [NUL]))); auto using peek1; [discriminate|]. intros e [= <-]. rewrite C1, (ceq_no c "[") by auto. reflexivity.
  - cbn [forallb] in F. apply andb_prop in F as (F1 & F2). rewrite fget_plain; [|auto|intros ->; discriminate]. rewrite F1. cbn [length] in H. rewrite IH; auto; [|lia|discriminate]. now rewrite <- app_assoc.
Qed.
Lemma gbv_elem s : forall n acc sub c t k l, forallb letnum s = true -> printables sub = true -> brackets 0 sub = true -> c <> NUL -> c <> "\"%char -> length s + length sub + 2 < n -> ord k ->
  frun (get_brace_var n PS_IDENT acc) (Flat (s ++ L "[" ++ sub ++ "]"%char :: c :: t) k 0) l = Some (inl (acc ++ s ++ L "[" ++ sub ++ L "]" ++ [NUL]), Flat (c :: t) 0 0, None).
Proof.
  induction s as [|e s IH]; intros n acc sub c t k l F P B C3 C4 H K; (destruct n as [|n]; [cbn in H; lia|]); cbn [get_brace_var].
  - unfold get at 1. cbn [bind]. cbn [app]. change (L "[") with ["["%char]. cbn [app]. rewrite fget_plain; [|auto|discriminate]. change (letnum "[") with false. change (ceq "[" "[") with true. cbn iota. rewrite frun_bind.
    destruct (asub_ok sub n 0 [] (c :: t) 0 (Some "["%char)) as (k' & K' & E); auto; [cbn in H; lia|]. rewrite E. cbn iota. unfold get. cbn [bind].
    rewrite (peek_unget (c :: t) k' _ _ (Ret ((acc ++ "["%char :: [] ++ sub ++ L "]") ++ [NUL]))); auto using peek1; [|discriminate].
    cbn [frun app]. rewrite <- !app_assoc. cbn [app]. rewrite <- !app_assoc. reflexivity.
  - unfold get at 1. cbn [bind app]. cbn [forallb] in F. apply andb_prop in F as (F1 & F2). rewrite fget_plain; [|auto|intros ->; discriminate]. rewrite F1. cbn [length] in H. rewrite IH; auto; [|lia|discriminate]. now rewrite <- app_assoc.
Qed.
Lemma gbv_num s : forall n acc c t k l, forallb isdigit s = true -> isdigit c = false -> c <> NUL -> c <> "\"%char -> length s < n -> ord k ->
  frun (get_brace_var n PS_NUMBER acc) (Flat (s ++ c :: t) k 0) l = Some (inl (acc ++ s ++ [NUL]), Flat (c :: t) 0 0, None).
Proof.
  induction s as [|e s IH]; intros n acc c t k l F C1 C3 C4 H K; (destruct n as [|n]; [cbn in H; lia|]); cbn [get_brace_var]; unfold get; cbn [bind app].
  - rewrite (peek_unget (c :: t) k l _ (Ret (acc ++ [NUL]))); auto using peek1; [discriminate|]. intros e [= <-]. rewrite C1. reflexivity.
  - cbn [forallb] in F. apply andb_prop in F as (F1 & F2). rewrite fget_plain; [|auto|intros ->; discriminate]. rewrite F1. cbn [length] in H. rewrite IH; auto; [|lia|discriminate]. now rewrite <- app_assoc.
Qed.
Lemma gbv_one n acc c t k l : c <> NUL -> c <> "\"%char -> 0 < n -> ord k ->
  frun (get_brace_var n PS_VAR1 acc) (Flat (c :: t) k 0) l = Some (inl (acc ++ [NUL]), Flat (c :: t) 0 0, None).
Proof.
  intros C3 C4 H K. destruct n as [|n]; [lia|]. cbn [get_brace_var]; unfold get; cbn [bind]. rewrite (peek_unget (c :: t) k l _ (Ret (acc ++ [NUL]))); auto using peek1; discriminate.
Qed.
Lemma gbv_first n p acc e t k l : (p = PS_INITIAL /\ e <> "#"%char \/ p = PS_SAW_HASH) -> bv_first e <> PS_END -> ord k ->
  frun (get_brace_var (S n) p acc) (Flat (e :: t) k 0) l = frun (get_brace_var n (bv_first e) (acc ++ [e])) (Flat t 0 0) (Some e).
Proof.
  intros P B K. cbn [get_brace_var]. unfold get. cbn [bind]. rewrite fget_plain; [|auto|intros ->; apply B; reflexivity].
  destruct P as [(-> & N)| ->]; [rewrite (ceq_no e "#") by auto|]; destruct (bv_first e); congruence.
Qed.
Lemma digit_bv c : isdigit c = true -> bv_first c = PS_NUMBER.
Proof. revert c. intros [[] [] [] [] [] [] [] []]; vm_compute; congruence. Qed.
Lemma one_bv c : parameter c = true -> bv_first c = PS_VAR1.
Proof. revert c. intros [[] [] [] [] [] [] [] []]; vm_compute; congruence. Qed.
Lemma brace_name_len s c : brace_name s c -> 0 < length s.
Proof. intros []; rewrite ?app_length; cbn; try lia; destruct s0; cbn in *; try discriminate; lia. Qed.
Lemma gbv_ok s c : brace_name s c -> forall n t k l, c <> NUL -> c <> "\"%char -> length s + 2 < n -> ord k ->
  frun (get_brace_var n PS_INITIAL []) (Flat (s ++ c :: t) k 0) l = Some (inl (s ++ [NUL]), Flat (c :: t) 0 0, None).
Proof.
  intros B n t k l C1 C2 H K.
  assert (forall h s, (h = [] \/ h = L "#") -> (match s with e :: _ => bv_first e <> PS_END /\ e <> "#"%char | [] => False end) -> length (h ++ s) + 2 < n ->
    (forall e r m h k2 l2, s = e :: r -> length r + 2 < m -> ord k2 -> frun (get_brace_var m (bv_first e) (h ++ [e])) (Flat (r ++ c :: t) k2 0) l2 = Some (inl (h ++ s ++ [NUL]), Flat (c :: t) 0 0, None)) ->
    frun (get_brace_var n PS_INITIAL []) (Flat ((h ++ s) ++ c :: t) k 0) l = Some (inl ((h ++ s) ++ [NUL]), Flat (c :: t) 0 0, None)) as GO.
  { clear B H. intros h s0 Hh S0 H X. destruct s0 as [|e r]; [contradiction|]. destruct S0 as (S1 & S2). destruct n as [|n]; [lia|]. destruct Hh as [-> | ->].
    - cbn [app] in *. rewrite gbv_first; auto. rewrite (X e r n [] 0); auto; [cbn in H; lia|discriminate].
    - change (L "#") with ["#"%char] in *. cbn [app] in *. cbn [get_brace_var]. unfold get. cbn [bind]. rewrite fget_plain; [|auto|discriminate]. change (ceq "#" "#") with true. cbn iota. cbn [app].
      destruct n as [|n]; [cbn in H; lia|]. rewrite gbv_first; auto; [|discriminate]. rewrite (X e r n ["#"%char] 0); auto; [cbn in H; lia|discriminate]. }
  assert (forall e, letter e = true -> bv_first e = PS_IDENT /\ e <> "#"%char) as LB by (intros e E; unfold bv_first; rewrite E; split; [auto|intros ->; discriminate]).
  destruct B as [h s c Hh I N1 N2|h s c Hh I N1|h s sub c Hh I P B|d c D N|d c D|c N1 N2 N3].
  - destruct s as [|e r]; [discriminate|]. cbn in I. apply andb_prop in I as (I1 & I2). destruct (LB e I1) as (B1 & B2). apply GO; auto; [rewrite B1; split; [discriminate|auto]|].
    intros e0 r0 m h0 k2 l2 [= <- <-] M K2. rewrite B1. rewrite gbv_ident; auto; [|lia]. rewrite <- app_assoc. reflexivity.
  - destruct s as [|e r]; [discriminate|]. cbn in I. apply andb_prop in I as (I1 & I2). pose proof (digit_bv e I1) as B1. apply GO; auto; [rewrite B1; split; [discriminate|intros ->; discriminate]|].
    intros e0 r0 m h0 k2 l2 [= <- <-] M K2. rewrite B1. rewrite gbv_num; auto; [|lia]. rewrite <- app_assoc. reflexivity.
  - destruct s as [|e r]; [discriminate|]. cbn in I. apply andb_prop in I as (I1 & I2). destruct (LB e I1) as (B1 & B2). apply GO; auto; [cbn [app]; rewrite B1; split; [discriminate|auto]|].
    intros e0 r0 m h0 k2 l2 [= <- <-] M K2. rewrite B1. change (L "[") with ["["%char]. change (L "]") with ["]"%char] in *. cbn [app] in *. rewrite !app_length in M. cbn [length] in M. rewrite app_length in M. cbn [length] in M.
    rewrite <- !app_assoc. cbn [app]. rewrite <- !app_assoc. cbn [app]. pose proof (gbv_elem r m (h0 ++ [e]) sub c t k2 l2) as G. change (L "[") with ["["%char] in G. change (L "]") with ["]"%char] in G. cbn [app] in G. rewrite G; auto; [|lia]. rewrite <- app_assoc. reflexivity.
  - destruct n as [|n]; [cbn in H; lia|]. cbn [app]. rewrite gbv_first; auto; [|rewrite one_bv; auto; discriminate]. rewrite one_bv by auto. rewrite gbv_one; auto; [cbn in H; lia|discriminate].
  - destruct n as [|[|n]]; [cbn in H; lia..|]. cbn [app]. cbn [get_brace_var]. unfold get. cbn [bind]. rewrite fget_plain; [|auto|discriminate]. change (ceq "#" "#") with true. cbn iota. cbn [app].
    change (get_brace_var n PS_SAW_HASH) with (get_brace_var n PS_SAW_HASH).
    match goal with |- context [frun (Get ?g) ?f ?l] => change (frun (Get g) f l) with (frun (get_brace_var (S n) PS_SAW_HASH ["#"%char]) f l) end.
    rewrite gbv_first; auto; [|rewrite one_bv; auto; discriminate|discriminate]. rewrite one_bv by auto. rewrite gbv_one; auto; [cbn in H; lia|discriminate].
  - destruct n as [|[|n]]; [cbn in H; lia..|]. cbn [app]. cbn [get_brace_var]. unfold get. cbn [bind]. rewrite fget_plain; [|auto|discriminate]. change (ceq "#" "#") with true. cbn iota. cbn [app].
    rewrite (peek_unget (c :: t) 0 _ _ (Ret (["#"%char] ++ [NUL]))); auto using peek1; [discriminate|discriminate|]. intros e [= <-].
    assert (bv_first c = PS_END) as ->; [|reflexivity]. unfold bv_first. change (letter c) with (name_start c). rewrite N1, N2. change (var1 c) with (parameter c). now rewrite N3.
Qed.

(** ** Pieces
    with [fol] still to be read, [txt] takes the lexer from [S1] to [S2] and [o] is added *)
Definition plain (cf : flags) : Prop := heredoc cf = false /\ unescape cf = false.
Definition goes (cf : flags) (S1 : list lst) (txt : cstr) (S2 : list lst) (o fol : cstr) : Prop :=
  forall n out k l, ord k -> length txt + 2 < n -> exists m k' l', m <= length txt /\ ord k' /\
    frun (loop n cf S1 out) (Flat (txt ++ fol) k 0) l = frun (loop (n - m) cf S2 (out ++ o)) (Flat fol k' 0) l'.
Lemma goes_nil cf S1 fol : goes cf S1 [] S1 [] fol.
Proof. intros n out k l K H. exists 0, k, l. rewrite Nat.sub_0_r, app_nil_r. auto. Qed.
Lemma goes_trans cf S1 S2 S3 a b o1 o2 fol : goes cf S1 a S2 o1 (b ++ fol) -> goes cf S2 b S3 o2 fol -> goes cf S1 (a ++ b) S3 (o1 ++ o2) fol.
Proof.
  intros A B n out k l K H. rewrite app_length in *. destruct (A n out k l K) as (m1 & k1 & l1 & M1 & K1 & E1); [lia|]. destruct (B (n - m1) (out ++ o1) k1 l1 K1) as (m2 & k2 & l2 & M2 & K2 & E2); [lia|].
  exists (m1 + m2), k2, l2. split; [lia|]. split; [auto|]. rewrite <- app_assoc, E1, E2, <- app_assoc. do 2 f_equal. lia.
Qed.
(** one round *)
Lemma goes_step cf S1 S2 c txt o fol : c <> NUL -> (base_like (top S1) = true -> lex1 c = false) -> (c = "\"%char -> hd_error (txt ++ fol) <> Some NL) ->
  (forall n out k l, (c <> "\"%char -> ord k) -> (c = "\"%char -> k = 1) -> length txt + 2 < n -> exists k' l', ord k' /\ frun (step n cf c S1 out) (Flat (txt ++ fol) k 0) l = Some (inl (Cont S2 (out ++ o)), Flat fol k' 0, l')) ->
  goes cf S1 (c :: txt) S2 o fol.
Proof.
  intros N B T H n out k l K Hn. destruct n as [|n]; [lia|]. cbn [length] in Hn. cbn [app]. destruct (loop_c n cf c S1 out (txt ++ fol) k l N B T) as (k1 & (K1 & K2) & E).
  destruct (H n out k1 (Some c)) as (k' & l' & K' & E'); auto; [lia|]. exists 1, k', l'. cbn [length]. split; [lia|]. split; [auto|]. rewrite E, E'. cbn [Nat.sub]. now rewrite Nat.sub_0_r.
Qed.
Lemma base_dst d x stk : base_like (top (dst d x stk)) = true -> d = false /\ x = CBase.
Proof. destruct d, x; cbn; auto; discriminate. Qed.
Lemma lex1_meta c : printable c = true -> mem c (meta CBase false) = false -> lex1 c = false.
Proof.
  intros P M. unfold lex1. rewrite is_nul_no by (apply printable_nul; auto). cbn [orb]. apply Bool.not_true_iff_false. intros X. apply mem_In in X. apply mem_false in M. apply M. cbn in *. tauto.
Qed.
Lemma step_dollar n cf d x stk out : step n cf "$" (dst d x stk) out = subst n cf "$" (dst d x stk) out.
Proof. destruct d, x; reflexivity. Qed.
Lemma subst_self n cf c S1 out t k l nx : ceq c "\" = false -> ceq c "`" = false ->
  (if ceq c "$" then negb (mem nx (L "({") || name_start nx || parameter nx || isdigit nx) else true) = true -> hd_error t = Some nx -> peekable t -> ord k ->
  exists k' l', ord k' /\ frun (subst n cf c S1 out) (Flat t k 0) l = Some (inl (Cont S1 (out ++ [CHAR; c])), Flat t k' 0, l').
Proof.
  intros N1 N2 D H P K. unfold subst. rewrite N1. destruct (ceq c "$") eqn:E.
  - apply ceq_true in E. subst. apply negb_true_iff in D. apply orb_false_iff in D as (D & D4). apply orb_false_iff in D as (D & D3). apply orb_false_iff in D as (D1 & D2).
    exists 0, None. split; [discriminate|]. unfold get. cbn [bind]. rewrite (peek_back t k l _ (cont S1 (out ++ [CHAR; "$"%char]))); auto.
    + intros e He. rewrite H in He. injection He as <-. rewrite (mem_no _ _ D1 "("%char), (mem_no _ _ D1 "{"%char) by (cbn; auto). change (letter nx) with (name_start nx). rewrite D2. change (var1 nx) with (parameter nx). rewrite D3, D4. reflexivity.
  - rewrite N2. exists k, l. auto.
Qed.
Lemma g_self cf x d stk c nx fol : plain cf -> itself x d c nx = true -> (varasn cf = true -> x = CBase -> d = false -> c <> "["%char) -> hd_error fol = Some nx -> peekable fol ->
  goes cf (dst d x stk) [c] (dst d x stk) [CHAR; c] fol.
Proof.
  intros (HD & _) I V H P. unfold itself in I. apply andb_prop in I as (I & I4). apply andb_prop in I as (I & I3). apply andb_prop in I as (I1 & I2). apply negb_true_iff in I2. destruct (printable_nul c I1) as (N1 & _).
  assert (forall e, In e (meta x d) -> ceq c e = false) as NO by (apply mem_no; auto).
  assert (ceq c "\" = false) as B1 by (apply NO; destruct d, x; cbn; tauto). assert (ceq c "`" = false) as B2 by (apply NO; destruct d, x; cbn; tauto). assert (ceq c """" = false) as B3 by (apply NO; destruct d, x; cbn; tauto).
  apply goes_step; auto.
  - intros B. apply base_dst in B as (-> & ->). apply lex1_meta; auto.
  - intros ->. discriminate.
  - cbn [app]. intros n out k l K _ _. assert (ord k) as K0 by (apply K; intros ->; discriminate). clear K.
    destruct d.
    + cbn [dst step]. rewrite B3. apply subst_self with nx; auto.
    + assert (forall k l, ord k -> exists k' l', ord k' /\ frun (sbase2 n cf c (st x :: stk) out) (Flat fol k 0) l = Some (inl (Cont (st x :: stk) (out ++ [CHAR; c])), Flat fol k' 0, l')) as S2.
      { intros k0 l0 K0'. unfold sbase2. rewrite B1, B3. destruct (ceq c "'") eqn:Q; [|apply subst_self with nx; auto].
        destruct x; try (rewrite NO in Q by (cbn; tauto); discriminate). rewrite orb_true_r. exists k0, l0. auto. }
      assert (has_patterns x = true -> exists k' l', ord k' /\ frun (sbase1 n cf c (st x :: stk) out) (Flat fol k 0) l = Some (inl (Cont (st x :: stk) (out ++ [CHAR; c])), Flat fol k' 0, l')) as S1.
      { intros HP. rewrite HP in I4. unfold sbase1. destruct (mem c (L "*@+?!")); [|auto]. cbn in I4. destruct (S2 0 None) as (k2 & l2 & K2 & E2); [discriminate|]. exists k2, l2. split; [auto|]. rewrite <- E2. unfold get. cbn [bind]. apply peek_back; auto.
        - intros e He. rewrite H in He. injection He as <-. apply negb_true_iff in I4. rewrite I4. reflexivity.
        }
      destruct x; cbn [dst st step] in *.
      * assert (ceq c "[" && varasn cf = false) as ->; [|auto]. destruct (varasn cf); [|apply andb_false_r]. rewrite andb_true_r. apply ceq_false. auto.
      * rewrite (NO "}"%char) by (cbn; tauto). auto.
      * rewrite (NO "}"%char) by (cbn; tauto). auto.
      * rewrite (NO "}"%char), (NO "|"%char), (NO "("%char) by (cbn; tauto). auto.
      * rewrite (NO ")"%char), (NO "|"%char), (NO "("%char) by (cbn; tauto). auto.
Qed.
Lemma g_esc cf x d stk c fol : plain cf -> printable c = true -> (d = true -> In c (L "\""`$")) -> goes cf (dst d x stk) ["\"%char; c] (dst d x stk) [QCHAR; c] fol.
Proof.
  intros (HD & _) P D. destruct (printable_nul c P) as (N1 & N2 & _). apply goes_step; [discriminate|intros _; reflexivity|cbn; congruence|].
  cbn [app]. intros n out k l _ K _. rewrite (K eq_refl). exists 2, (Some c). split; [discriminate|].
  assert (frun (c <- get;; (if is_nul c then cont (dst d x stk) out else cont (dst d x stk) (out ++ [QCHAR; c]))) (Flat (c :: fol) 1 0) l = Some (inl (Cont (dst d x stk) (out ++ [QCHAR; c])), Flat fol 2 0, Some c)) as X.
  { unfold get. cbn [bind]. rewrite fget_esc, is_nul_no by auto. reflexivity. }
  destruct d; [|destruct x; exact X]. clear X. cbn [dst step]. change (ceq "\" """") with false. cbn iota. unfold subst. change (ceq "\" "\") with true. cbn iota. unfold get. cbn [bind]. rewrite fget_esc. rewrite HD.
  specialize (D eq_refl). cbn in D. destruct D as [<-|[<-|[<-|[<-|[]]]]]; reflexivity.
Qed.
Lemma g_back cf x stk c fol : plain cf -> printable c = true -> ~ In c (L "\""`$") -> goes cf (dst true x stk) ["\"%char; c] (dst true x stk) [CHAR; "\"%char; CHAR; c] fol.
Proof.
  intros (HD & UE) P D. destruct (printable_nul c P) as (N1 & N2 & _). apply goes_step; [discriminate|discriminate|cbn; congruence|].
  cbn [app]. intros n out k l _ K _. rewrite (K eq_refl). exists 2, (Some c). split; [discriminate|].
  cbn [dst step]. change (ceq "\" """") with false. cbn iota. unfold subst. change (ceq "\" "\") with true. cbn iota. unfold get. cbn [bind]. rewrite fget_esc. rewrite HD, UE.
  rewrite (ceq_no c "\"), (ceq_no c "$"), (ceq_no c "`"), (ceq_no c """"), is_nul_no by (auto; intros ->; apply D; cbn; tauto). reflexivity.
Qed.
Lemma g_open cf x stk fol : goes cf (dst false x stk) [""""%char] (dst true x stk) [OQUOTE] fol.
Proof.
  apply goes_step; [discriminate|intros _; reflexivity|discriminate|]. cbn [app]. intros n out k l K _ _. exists k, l. split; [apply K; discriminate|]. destruct x; reflexivity.
Qed.
Lemma g_close cf x stk fol : goes cf (dst true x stk) [""""%char] (dst false x stk) [CQUOTE] fol.
Proof. apply goes_step; [discriminate|discriminate|discriminate|]. cbn [app]. intros n out k l K _ _. exists k, l. split; [apply K; discriminate|]. reflexivity. Qed.
Lemma goes_cast cf S1 a a' S2 o o' fol : a = a' -> o = o' -> goes cf S1 a S2 o fol -> goes cf S1 a' S2 o' fol.
Proof. intros -> ->. auto. Qed.
Lemma subst_dollar n cf S1 out : subst n cf "$" S1 out = (c <- get ;; 
    if ceq c "(" then
      c <- get ;;
      if ceq c "(" then cont (SASPAREN 2 (length out) :: S1) (out ++ [EXPRSUB])
      else Unget c (cont (SCSPAREN 1 0 :: S1) (out ++ [COMSUB]))
    else if ceq c "{" then
      v <- get_brace_var n PS_INITIAL [] ;;
      let out := out ++ OSUBST :: "{"%char :: v in
      c <- get ;;
      '(c, out) <- (if ceq c ":" then c2 <- get ;; Ret (c2, out ++ [CHAR; c]) else Ret (c, out)) ;;
      if ceq c "#" || ceq c "%" then Unget c (cont (STBRACE :: S1) out)
      else Unget c (cont ((if in_dq (top S1) then SBRACEQ else SBRACE) :: S1) out)
    else if letter c then
      v <- Lex_model.dollar_name n c [] ;;
      cont S1 (out ++ OSUBST :: "X"%char :: v ++ [NUL; CSUBST; "X"%char])
    else if var1 c || isdigit c then
      cont S1 (out ++ [OSUBST; "X"%char; c; NUL; CSUBST; "X"%char])
    else Unget c (cont S1 (out ++ [CHAR; "$"%char]))).
Proof. reflexivity. Qed.
Lemma g_name cf x d stk s nx fol : dollar_name s nx = true -> hd_error fol = Some nx -> peekable fol ->
  goes cf (dst d x stk) ("$"%char :: s) (dst d x stk) (OSUBST :: "X"%char :: s ++ [NUL; CSUBST; "X"%char]) fol.
Proof.
  intros D H P. apply goes_step; [discriminate|intros _; reflexivity|discriminate|]. intros n out k l K _ Hn. assert (ord k) as K0 by (apply K; discriminate). clear K.
  rewrite step_dollar, subst_dollar. unfold dollar_name in D. destruct s as [|e s]; [discriminate|]. unfold get at 1. cbn [bind app]. apply orb_prop in D as [D|D].
  - apply andb_prop in D as (D1 & D2). cbn in D1. apply andb_prop in D1 as (D1 & D3). apply negb_true_iff in D2. change (letter e = true) in D1.
    rewrite fget_plain; [|auto|intros ->; discriminate]. rewrite (ceq_no e "("), (ceq_no e "{") by (intros ->; discriminate). rewrite D1, frun_bind. cbn [length] in Hn.
    rewrite dname_ok; auto; [|unfold letnum; now rewrite D1|lia|discriminate|intros ->; discriminate|intros e0 E0; rewrite H in E0; injection E0 as <-; exact D2].
    exists 0, None. split; [discriminate|]. reflexivity.
  - destruct s; [|discriminate]. cbn [app]. assert (letter e = false /\ var1 e || isdigit e = true /\ ceq e "(" = false /\ ceq e "{" = false /\ e <> "\"%char) as (A1 & A2 & A3 & A4 & A5).
    { revert D. clear. destruct e as [[] [] [] [] [] [] [] []]; vm_compute; intros D; try discriminate D; repeat split; discriminate. }
    rewrite fget_plain; auto. rewrite A3, A4, A1, A2. exists 0, (Some e). split; [discriminate|]. reflexivity.
Qed.
Lemma g_com cf x d stk s fol : printables s = true -> closed 0 QNone s = true -> hd_error s <> Some "("%char ->
  goes cf (dst d x stk) (L "$(" ++ s ++ L ")") (dst d x stk) (COMSUB :: s ++ [NUL]) fol.
Proof.
  intros P C H. assert (peekable (s ++ ")"%char :: fol)) as PK.
  { destruct s as [|e s]; cbn; [split; discriminate|]. cbn in P. apply andb_prop in P as (P1 & P2). apply printable_nul in P1. split; [tauto|]. intros _. destruct s; cbn; [discriminate|]. cbn in P2. apply andb_prop in P2 as (P2 & _). apply printable_nul in P2. tauto. }
  change (COMSUB :: s ++ [NUL]) with ([COMSUB] ++ (s ++ [NUL])). apply goes_trans with (S2 := SCSPAREN 1 0 :: dst d x stk).
  - change (L "$(") with ["$"%char; "("%char]. apply goes_step; [discriminate|intros _; reflexivity|discriminate|]. intros n out k l K _ Hn. assert (ord k) as K0 by (apply K; discriminate). clear K.
    rewrite step_dollar, subst_dollar. unfold get at 1. cbn [bind app]. rewrite fget_plain; [|auto|discriminate]. change (ceq "(" "(") with true. cbn iota. unfold get. cbn [bind].
    rewrite <- app_assoc. change (L ")" ++ fol) with (")"%char :: fol).
    rewrite (peek_back _ _ _ _ (cont (SCSPAREN 1 0 :: dst d x stk) (out ++ [COMSUB]))); auto; [exists 0, None; split; [discriminate|reflexivity]|discriminate|].
    intros e E. rewrite (ceq_no e "("); [reflexivity|]. intros ->. destruct s; [discriminate E|]. auto.
  - intros n out k l K Hn. rewrite app_length in Hn. cbn in Hn. rewrite <- app_assoc. change (L ")" ++ fol) with (")"%char :: fol).
    destruct (loop_com s n cf 0 QNone out (dst d x stk) fol k l) as (k' & l' & K' & E); auto; [lia|]. exists (S (length s)), k', l'. rewrite app_length. cbn [L length String.list_ascii_of_string]. split; [lia|]. split; [auto|]. exact E.
Qed.
Lemma g_exp cf x d stk s fol : printables s = true -> balanced 0 s = true ->
  goes cf (dst d x stk) (L "$((" ++ s ++ L "))") (dst d x stk) (EXPRSUB :: s ++ [NUL]) fol.
Proof.
  intros P C n out k l K Hn. change (L "$((") with ["$"%char; "("%char; "("%char] in *. change (L "))") with [")"%char; ")"%char] in *. rewrite !app_length in *. cbn [length] in *. destruct n as [|n]; [lia|].
  cbn [app]. rewrite <- app_assoc. cbn [app]. destruct (loop_c n cf "$"%char (dst d x stk) out ("("%char :: "("%char :: s ++ ")"%char :: ")"%char :: fol) k l) as (k1 & (K1 & _) & E); [discriminate|intros _; reflexivity|discriminate|]. rewrite E. clear E.
  rewrite step_dollar, subst_dollar. unfold get at 1. cbn [bind]. rewrite fget_plain; [|apply K1; discriminate|discriminate]. change (ceq "(" "(") with true. cbn iota. unfold get at 1. cbn [bind]. rewrite fget_plain; [|discriminate|discriminate]. change (ceq "(" "(") with true. cbn iota. cbn [frun cont].
  destruct (loop_exp s n cf 0 (length out) (out ++ [EXPRSUB]) (dst d x stk) fol 0 (Some "("%char)) as (k' & l' & K' & E); auto; [lia|]. rewrite E. exists (S (S (length s))), k', l'. split; [lia|]. split; [auto|]. rewrite <- app_assoc. reflexivity.
Qed.
Lemma inside_st x d v c stk : (mem c (L "#%") = trims v) ->
  (if ceq c "#" || ceq c "%" then STBRACE else if in_dq (top (dst d x stk)) then SBRACEQ else SBRACE) = st (inside x d v).
Proof.
  intros M. unfold inside. rewrite <- M. unfold mem. cbn [L String.list_ascii_of_string existsb]. rewrite orb_false_r. destruct (ceq c "#" || ceq c "%"); [reflexivity|]. destruct d, x; reflexivity.
Qed.
Lemma g_brace cf x d stk s c v fol : brace_name s c -> operator c || ceq c "}" = true -> hd_error fol = Some c -> mem c (L "#%") = trims v ->
  goes cf (dst d x stk) (L "${" ++ s) (st (inside x d v) :: dst d x stk) (OSUBST :: "{"%char :: s ++ [NUL]) fol.
Proof.
  intros B O H M. destruct fol as [|c' fol]; [discriminate|]. injection H as ->. assert (c <> NUL /\ c <> "\"%char /\ ceq c ":" = false) as (C1 & C2 & C3).
  { revert O. clear. destruct c as [[] [] [] [] [] [] [] []]; vm_compute; intros O; try discriminate O; repeat split; discriminate. }
  change (L "${" ++ s) with ("$"%char :: "{"%char :: s). apply goes_step; [discriminate|intros _; reflexivity|discriminate|]. intros n out k l K _ Hn. assert (ord k) as K0 by (apply K; discriminate). clear K.
  rewrite step_dollar, subst_dollar. unfold get at 1. cbn [bind app]. rewrite fget_plain; [|auto|discriminate]. change (ceq "{" "(") with false. change (ceq "{" "{") with true. cbn iota. rewrite frun_bind.
  cbn [length] in Hn. rewrite gbv_ok; auto; [|lia|discriminate]. cbv zeta. unfold get at 1. cbn [bind].
  rewrite fget_plain; [|discriminate|auto]. rewrite C3. cbn [bind]. rewrite <- (inside_st x d v c stk M). exists 0, None. split; [discriminate|].
  destruct (ceq c "#" || ceq c "%"); cbn [frun cont]; rewrite ceq_refl; unfold funget; rewrite is_nul_no by auto; reflexivity.
Qed.
Lemma g_colon cf x d stk s c v fol : brace_name s ":" -> operator c = true -> hd_error fol = Some c -> mem c (L "#%") = trims v ->
  goes cf (dst d x stk) (L "${" ++ s ++ L ":") (st (inside x d v) :: dst d x stk) (OSUBST :: "{"%char :: s ++ [NUL; CHAR; ":"%char]) fol.
Proof.
  intros B O H M. destruct fol as [|c' fol]; [discriminate|]. injection H as ->. assert (c <> NUL /\ c <> "\"%char) as (C1 & C2).
  { revert O. clear. destruct c as [[] [] [] [] [] [] [] []]; vm_compute; intros O; try discriminate O; repeat split; discriminate. }
  change (L "${" ++ s ++ L ":") with ("$"%char :: "{"%char :: s ++ [":"%char]). apply goes_step; [discriminate|intros _; reflexivity|discriminate|]. intros n out k l K _ Hn. assert (ord k) as K0 by (apply K; discriminate). clear K.
  rewrite step_dollar, subst_dollar. unfold get at 1. cbn [bind app]. rewrite fget_plain; [|auto|discriminate]. change (ceq "{" "(") with false. change (ceq "{" "{") with true. cbn iota. rewrite frun_bind.
  cbn [length] in Hn. rewrite app_length in Hn. cbn [length] in Hn. rewrite <- app_assoc. cbn [app]. rewrite gbv_ok; auto; [|discriminate|discriminate|lia|discriminate]. cbv zeta. unfold get at 1. cbn [bind].
  rewrite fget_plain; [|discriminate|discriminate]. change (ceq ":" ":") with true. cbn iota. rewrite frun_bind. unfold get. cbn [bind]. rewrite fget_plain; [|discriminate|auto]. cbn [frun]. rewrite <- (inside_st x d v c stk M). exists 0, None. split; [discriminate|].
  destruct (ceq c "#" || ceq c "%"); cbn [frun cont]; rewrite ceq_refl; unfold funget; rewrite is_nul_no by auto; cbn [ftext fskip fign pred]; rewrite <- !app_assoc; cbn [app]; rewrite <- !app_assoc; reflexivity.
Qed.
Lemma g_rbrace cf x d v S1 fol : goes cf (st (inside x d v) :: S1) (L "}") S1 [CSUBST; "}"%char] fol.
Proof.
  change (L "}") with ["}"%char]. unfold inside. apply goes_step; [discriminate| |discriminate|].
  - intros _. reflexivity.
  - intros n out k l K _ _. exists k, l. split; [apply K; discriminate|]. destruct (trims v); [reflexivity|]. destruct (_ || _); reflexivity.
Qed.
Lemma g_pat cf x k stk fol : has_patterns x = true -> In k (L "*@+?!") -> goes cf (dst false x stk) [k; "("%char] (SPATTERN :: dst false x stk) [OPAT; k] fol.
Proof.
  intros X I. assert (k <> NUL /\ k <> "\"%char /\ lex1 k = false /\ mem k (L "*@+?!") = true /\ ceq k "[" = false /\ ceq k "}" = false /\ ceq k "|" = false /\ ceq k "(" = false /\ ceq k ")" = false) as (C1 & C2 & C3 & C4 & C5 & C6 & C7 & C8 & C9).
  { cbn in I. repeat (destruct I as [<-|I]; [repeat split; discriminate|]). contradiction. }
  apply goes_step; auto.
  intros n out k0 l K _ _. assert (ord k0) as K0 by auto. assert (frun (sbase1 n cf k (st x :: stk) out) (Flat (["("%char] ++ fol) k0 0) l = Some (inl (Cont (SPATTERN :: dst false x stk) (out ++ [OPAT; k])), Flat fol 0 0, Some "("%char)) as X1.
  { unfold sbase1. rewrite C4. unfold get. cbn [bind app]. rewrite fget_plain; [|auto|discriminate]. reflexivity. }
  exists 0, (Some "("%char). split; [discriminate|]. destruct x; try discriminate; cbn [dst st step] in *; rewrite ?C5, ?C6, ?C7, ?C8, ?C9; exact X1.
Qed.
Lemma g_bar cf S1 fol : goes cf (SPATTERN :: S1) (L "|") (SPATTERN :: S1) [SPAT] fol.
Proof. change (L "|") with ["|"%char]. apply goes_step; [discriminate|discriminate|discriminate|]. intros n out k l K _ _. exists k, l. split; [apply K; discriminate|]. reflexivity. Qed.
Lemma g_rparen cf S1 fol : goes cf (SPATTERN :: S1) (L ")") S1 [CPAT] fol.
Proof. change (L ")") with [")"%char]. apply goes_step; [discriminate|discriminate|discriminate|]. intros n out k l K _ _. exists k, l. split; [apply K; discriminate|]. reflexivity. Qed.

(** ** Printing *)
Definition pr (o : cstr) (f : bool) (txt : cstr) (f' : bool) : Prop := forall r, tput PCode f (o ++ r) = option_map (app txt) (tput PCode f' r).
Lemma omap_app (a b : cstr) z : option_map (app a) (option_map (app b) z) = option_map (app (a ++ b)) z.
Proof. destruct z; cbn; [now rewrite app_assoc|reflexivity]. Qed.
Lemma omap_nil (z : option cstr) : option_map (app []) z = z.
Proof. now destruct z. Qed.
Lemma pr_nil f : pr [] f [] f.
Proof. intros r. cbn. now rewrite omap_nil. Qed.
Lemma pr_app o1 o2 f f1 f2 t1 t2 : pr o1 f t1 f1 -> pr o2 f1 t2 f2 -> pr (o1 ++ o2) f (t1 ++ t2) f2.
Proof. intros A B r. now rewrite <- app_assoc, A, B, omap_app. Qed.
Lemma pr_one o f t f' : (forall r, tput PCode f (o ++ r) = option_map (app t) (tput PCode f' r)) -> pr o f t f'.
Proof. auto. Qed.
Lemma pr_cast o o' f t t' f' : o' = o -> t = t' -> pr o f t f' -> pr o' f t' f'.
Proof. intros -> ->. auto. Qed.
Lemma pr_chr c f : printable c = true -> pr [CHAR; c] f [c] f.
Proof. intros P r. cbn -[tputC]. now rewrite tputC_ok. Qed.
Lemma pr_qch c f : printable c = true -> pr [QCHAR; c] f (if bare f c then [c] else ["\"%char; c]) f.
Proof. intros P r. transitivity (option_map (app ((if negb f || mem c (L """`$") then L "\" else []) ++ tputC c)) (tput PCode f r)); [reflexivity|]. rewrite tputC_ok by auto. unfold bare. destruct f, (mem c (L """`$")); reflexivity. Qed.
Lemma tput_text s close q r : ~ In NUL s -> tput (PText close) q (s ++ NUL :: r) = option_map (app (flat_map tputC s ++ close)) (tput PCode q r).
Proof.
  induction s as [|c s IH]; intros N.
  - reflexivity.
  - cbn -[tputC]. rewrite (ceq_no c NUL) by (intros ->; apply N; left; reflexivity). rewrite IH by (intros I; apply N; right; auto). now rewrite omap_app, app_assoc.
Qed.
Lemma printables_nul s : printables s = true -> ~ In NUL s.
Proof. intros P I. apply forallb_forall with (x := NUL) in P; auto. discriminate. Qed.
Lemma pr_com s f : printables s = true -> pr (COMSUB :: s ++ [NUL]) f (L "$(" ++ s ++ L ")") f.
Proof. intros P r. rewrite <- app_comm_cons, <- app_assoc. change (tput PCode f (COMSUB :: s ++ [NUL] ++ r)) with (option_map (app (L "$(")) (tput (PText (L ")")) f (s ++ NUL :: r))). rewrite tput_text, omap_app, tputC_oks; auto using printables_nul. Qed.
Lemma pr_exp s f : printables s = true -> pr (EXPRSUB :: s ++ [NUL]) f (L "$((" ++ s ++ L "))") f.
Proof. intros P r. rewrite <- app_comm_cons, <- app_assoc. change (tput PCode f (EXPRSUB :: s ++ [NUL] ++ r)) with (option_map (app (L "$((")) (tput (PText (L "))")) f (s ++ NUL :: r))). rewrite tput_text, omap_app, tputC_oks; auto using printables_nul. Qed.
Lemma pr_osub (b : bool) s f : printables s = true -> pr (OSUBST :: (if b then "{"%char else "X"%char) :: s ++ [NUL]) f ((if b then L "${" else L "$") ++ s) f.
Proof.
  intros P r. rewrite <- !app_comm_cons, <- app_assoc. transitivity (option_map (app (L "$")) (option_map (app (if b then L "{" else [])) (tput (PText []) f (s ++ NUL :: r)))); [destruct b; reflexivity|].
  rewrite tput_text, !omap_app, tputC_oks, app_nil_r; auto using printables_nul. destruct b; reflexivity.
Qed.
(** names are printable *)
Lemma name_print c : name_char c = true -> printable c = true.
Proof. destruct c as [[] [] [] [] [] [] [] []]; vm_compute; intros H; try discriminate H; reflexivity. Qed.
Lemma start_name c : name_start c = true -> name_char c = true.
Proof. unfold name_char. now intros ->. Qed.
Lemma param_print c : parameter c = true -> printable c = true.
Proof. destruct c as [[] [] [] [] [] [] [] []]; vm_compute; intros H; try discriminate H; reflexivity. Qed.
Lemma digit_print c : isdigit c = true -> printable c = true.
Proof. destruct c as [[] [] [] [] [] [] [] []]; vm_compute; intros H; try discriminate H; reflexivity. Qed.
Lemma printables_app a b : printables (a ++ b) = printables a && printables b.
Proof. apply forallb_app. Qed.
Lemma ident_print s : ident s = true -> printables s = true.
Proof.
  destruct s as [|c s]; [discriminate|]. cbn. intros H. apply andb_prop in H as (A & B). rewrite name_print by (apply start_name; auto). cbn. apply forallb_forall. intros e I. apply name_print. rewrite forallb_forall in B. auto.
Qed.
Lemma digits_print s : digits s = true -> printables s = true.
Proof. unfold digits. destruct s; [discriminate|]. intros B. apply forallb_forall. intros e I. apply digit_print. rewrite forallb_forall in B. auto. Qed.
Lemma brace_print s c : brace_name s c -> printables s = true.
Proof.
  intros [h s0 c0 H I _ _|h s0 c0 H I _|h s0 sub c0 H I P _|d c0 P _|d c0 P|c0 _ _ _]; rewrite ?printables_app.
  - rewrite (ident_print s0) by auto. destruct H as [->| ->]; reflexivity.
  - rewrite (digits_print s0) by auto. destruct H as [->| ->]; reflexivity.
  - rewrite (ident_print s0), P by auto. destruct H as [->| ->]; reflexivity.
  - cbn. now rewrite param_print.
  - cbn. now rewrite param_print.
  - reflexivity.
Qed.
Lemma dollar_print s c : dollar_name s c = true -> printables s = true.
Proof.
  intros H. apply orb_prop in H as [H|H]. { apply andb_prop in H as (H & _). now apply ident_print. }
  destruct s as [|e [|]]; try discriminate. cbn. apply orb_prop in H as [H|H]; [rewrite param_print|rewrite digit_print]; auto.
Qed.

(** ** All of a word *)
Lemma peek_text txt t rest : printables txt = true -> printable t = true -> t <> "\"%char -> peekable (txt ++ t :: rest).
Proof.
  intros P T N. destruct txt as [|c txt]; cbn [app].
  - split; [apply printable_nul in T; tauto|congruence].
  - cbn in P. apply andb_prop in P as (P1 & P2). split; [apply printable_nul in P1; tauto|]. intros _. destruct txt as [|e txt]; cbn [app hd_error].
    + intros [= ->]. discriminate.
    + cbn in P2. apply andb_prop in P2 as (P2 & _). intros [= ->]. discriminate.
Qed.
Lemma hd_text (txt : cstr) (t : char) (rest : cstr) : hd_error (txt ++ t :: rest) = Some (hd t txt).
Proof. destruct txt; reflexivity. Qed.
(** how a place is quoted when the word is expanded *)
Definition state_ok (x : ctx) (f d q : bool) : Prop :=
  (is_braceq x = false -> q = d) /\ (is_braceq x = true -> (d = true -> q = true) /\ (f = true -> q = true)).
Definition readsq (q : bool) (x : ctx) (f d : bool) (w : word) (t : char) (f' : bool) : Prop :=
  printable t = true -> t <> "\"%char -> exists txt w' q2,
    printables txt = true /\ pr (enc w) f txt f' /\ hd t txt = first f w t /\ (same q w w' q2 /\ (is_braceq x = false -> q2 = false)) /\
    (forall cf stk rest, plain cf -> (varasn cf = true -> x = CBase -> ~ In (Chr "[") w) ->
      goes cf (dst d x stk) txt (st x :: stk) (enc w') (t :: rest)).
Definition reads (x : ctx) (f d : bool) (w : word) (t : char) (f' : bool) : Prop := forall q, state_ok x f d q -> readsq q x f d w t f'.
Definition readsp (f : bool) (ps : pats) (f' : bool) : Prop := exists txt ps',
    printables txt = true /\ pr (encp ps ++ [CPAT]) f txt f' /\ samep false ps ps' false /\
    (forall cf stk rest, plain cf -> goes cf (SPATTERN :: stk) txt stk (encp ps' ++ [CPAT]) rest).
Lemma enc_app a b : enc (a ++ b) = enc a ++ enc b.
Proof. apply flat_map_app. Qed.
(** items in front *)
Lemma reads_items q q1 x f f1 d d1 is w t f' its txt1 :
  reads x f1 d1 w t f' -> state_ok x f1 d1 q1 -> printables txt1 = true -> txt1 <> [] -> pr (enc is) f txt1 f1 -> (forall e, hd e txt1 = first f (is ++ w) t) ->
  (forall w' q2, same q1 w w' q2 -> same q (is ++ w) (its ++ w') q2) ->
  (forall cf stk fol, plain cf -> (varasn cf = true -> x = CBase -> ~ In (Chr "[") is) -> hd_error fol = Some (first f1 w t) -> peekable fol ->
     goes cf (dst d x stk) txt1 (dst d1 x stk) (enc its) fol) ->
  readsq q x f d (is ++ w) t f'.
Proof.
  intros R Q P N PR H SM G T1 T2. destruct (R q1 Q T1 T2) as (txt & w' & q2 & A1 & A2 & A3 & (A4 & AQ) & A5). exists (txt1 ++ txt), (its ++ w'), q2. split; [|split; [|split; [|split]]].
  - now rewrite printables_app, P, A1.
  - rewrite enc_app. eapply pr_app; eauto.
  - destruct txt1; [congruence|]. rewrite <- (H t). reflexivity.
  - auto.
  - intros cf stk rest PL V. rewrite enc_app. eapply goes_trans; [apply G; auto|apply A5; auto].
    + intros V1 V2 I. apply (V V1 V2). apply in_or_app. auto.
    + rewrite hd_text. now rewrite A3.
    + apply peek_text; auto.
    + intros V1 V2 I. apply (V V1 V2). apply in_or_app. auto.
Qed.
Lemma itself_print x d c nx : itself x d c nx = true -> printable c = true.
Proof. unfold itself. intros H. now repeat (apply andb_prop in H as (H & _)). Qed.
Lemma after_cases v c v' : after_name v = Some (c, v') ->
  v = v' /\ (v = [] /\ c = "}"%char \/ exists w, v = Chr c :: w /\ operator c = true) \/
  c = ":"%char /\ v = Chr ":" :: v' /\ exists o w, v' = Chr o :: w /\ operator o = true.
Proof.
  unfold after_name. destruct v as [|[e| | | | | | | ] w]; try discriminate.
  - intros [= <- <-]. left. auto.
  - destruct (operator e) eqn:O. { intros [= <- <-]. left. split; [auto|]. right. eauto. }
    destruct (ceq_spec e ":"%char) as [->|]; [|discriminate]. destruct w as [|[o| | | | | | | ] w]; try discriminate. destruct (operator o) eqn:O2; [|discriminate]. intros [= <- <-]. right. split; [auto|]. split; [auto|]. exists o, w. auto.
Qed.
Lemma braceq_inside x d v : is_braceq (inside x d v) = negb (trims v) && (is_braceq x || d).
Proof. unfold inside. destruct (trims v), d, x; reflexivity. Qed.
Lemma state_dq x f q : state_ok x f true q -> q = true.
Proof. intros (A & B). destruct (is_braceq x); [|auto]. destruct (B eq_refl). auto. Qed.
Lemma state_f x d q : state_ok x true d q -> d || is_braceq x = true -> q = true.
Proof. intros (A & B) D. destruct (is_braceq x); [destruct (B eq_refl); auto|]. rewrite orb_false_r in D. subst. auto. Qed.
Lemma ok_flag x f d w t f' : ok x f d w t f' -> f' = true -> d = false /\ f = true.
Proof.
  apply (ok_mut (fun x f d w t f' _ => f' = true -> d = false /\ f = true) (fun f ps f' _ => f' = true -> f = true)); intros; auto;
  repeat match goal with H : ?f = true -> _ /\ _, H' : ?f = true |- _ => specialize (H H'); destruct H end; subst; try discriminate; auto; try tauto.
Qed.
Theorem reads_all : forall x f d w t f', ok x f d w t f' -> reads x f d w t f'.
Proof.
  apply (ok_mut (fun x f d w t f' _ => reads x f d w t f') (fun f ps f' _ => readsp f ps f')).
  - (* nil *) intros x f t q Q T1 T2. exists [], [], q. split; [reflexivity|]. split; [apply pr_nil|]. split; [reflexivity|]. split; [split; [constructor|apply Q]|]. intros. apply goes_nil.
  - (* chr *) intros x f d c w t f' I _ R q Q. pose proof (itself_print _ _ _ _ I) as P. apply (reads_items q q x f f d d [Chr c] w t f' [Chr c] [c]); auto; [now cbn; rewrite P|discriminate|now apply pr_chr|constructor; auto|].
    intros cf stk fol PL V H K. eapply g_self; eauto. intros V1 V2 _ ->. apply (V V1 V2). left. reflexivity.
  - (* back *) intros x f i c w t f' I P N _ R q Q. assert (q = true) as -> by (apply (state_dq _ _ _ Q)). apply (reads_items true true x f f true true [i; Chr c] w t f' [Chr "\"; Chr c] ["\"%char; c]); auto.
    + now cbn; rewrite P.
    + discriminate.
    + change [i; Chr c] with ([i] ++ [Chr c]). rewrite enc_app. apply (pr_app (enc [i]) (enc [Chr c]) f f f ["\"%char] [c]); [|now apply pr_chr]. destruct I as [->|[-> ->]]; [now apply pr_chr|]. now apply (pr_qch "\").
    + intros e. destruct I as [->|[-> ->]]; reflexivity.
    + intros w' q2 S. destruct I as [->|[-> ->]]; cbn [app]; repeat constructor; auto.
    + intros. now apply g_back.
  - (* qback *) intros x i c w t f' I P N _ R q Q. assert (q = true) as -> by (apply (state_dq _ _ _ Q)). assert (bare true c = true) as B by (unfold bare; cbn [andb]; apply negb_true_iff; apply mem_false; intros J; apply N; cbn in *; tauto).
    apply (reads_items true true x true true true true [i; Qch c] w t f' [Chr "\"; Chr c] ["\"%char; c]); auto.
    + now cbn; rewrite P.
    + discriminate.
    + change [i; Qch c] with ([i] ++ [Qch c]). rewrite enc_app. apply (pr_app (enc [i]) (enc [Qch c]) true true true ["\"%char] [c]); [|pose proof (pr_qch c true P) as X; now rewrite B in X]. destruct I as [->| ->]; [now apply pr_chr|]. now apply (pr_qch "\").
    + intros e. destruct I as [->| ->]; reflexivity.
    + intros w' q2 S. destruct I as [->| ->]; cbn [app]; repeat constructor; auto.
    + intros. now apply g_back.
  - (* qch *) intros x f d c w t f' P B D _ R q Q. apply (reads_items q q x f f d d [Qch c] w t f' [Qch c] ["\"%char; c]); auto.
    + now cbn; rewrite P.
    + discriminate.
    + pose proof (pr_qch c f P) as X. now rewrite B in X.
    + intros e. cbn. now rewrite B.
    + constructor; auto.
    + intros. now apply g_esc.
  - (* bare *) intros x d c w t f' B D I _ R q Q. assert (q = true) as -> by (apply (state_f _ _ _ Q D)). pose proof (itself_print _ _ _ _ I) as P. apply (reads_items true true x true true d d [Qch c] w t f' [Chr c] [c]); auto.
    + now cbn; rewrite P.
    + discriminate.
    + pose proof (pr_qch c true P) as X. now rewrite B in X.
    + intros e. cbn [app first]. now rewrite B.
    + intros w' q2 S. cbn [app]. apply same_quoted; auto.
    + intros cf stk fol PL V H K. eapply g_self; eauto. intros V1 -> ->. discriminate.
  - (* open *) intros x f w t f' _ R q Q. apply (reads_items q true x f true false true [OQ] w t f' [OQ] [""""%char]); auto; [split; auto|discriminate|intros r; reflexivity|constructor; auto|]. intros. apply g_open.
  - (* close *) intros x f w t f' _ R q Q. apply (reads_items q false x f false true false [CQ] w t f' [CQ] [""""%char]); auto; [split; auto|discriminate|intros r; reflexivity|constructor; auto|]. intros. apply g_close.
  - (* com *) intros x f d s w t f' P C H _ R q Q. apply (reads_items q q x f f d d [Com s] w t f' [Com s] (L "$(" ++ s ++ L ")")); auto.
    + now rewrite !printables_app, P.
    + discriminate.
    + cbn [enc flat_map enc1]. rewrite app_nil_r. now apply pr_com.
    + constructor; auto.
    + intros. cbn [enc flat_map enc1]. rewrite app_nil_r. now apply g_com.
  - (* exp *) intros x f d s w t f' P C _ R q Q. apply (reads_items q q x f f d d [Exp s] w t f' [Exp s] (L "$((" ++ s ++ L "))")); auto.
    + now rewrite !printables_app, P.
    + discriminate.
    + cbn [enc flat_map enc1]. rewrite app_nil_r. now apply pr_exp.
    + constructor; auto.
    + intros. cbn [enc flat_map enc1]. rewrite app_nil_r. now apply g_exp.
  - (* name *) intros x f d s w t f' D _ R q Q. pose proof (dollar_print _ _ D) as P. apply (reads_items q q x f f d d [Sub false s []] w t f' [Sub false s []] (L "$" ++ s)); auto.
    + discriminate.
    + intros r. assert (enc [Sub false s []] ++ r = (OSUBST :: "X"%char :: s ++ [NUL]) ++ CSUBST :: "X"%char :: r) as -> by (cbn [enc flat_map enc1 app]; now rewrite app_nil_r, <- !app_assoc).
      etransitivity; [exact (pr_osub false s f P (CSUBST :: "X"%char :: r))|]. change (tput PCode f (CSUBST :: "X"%char :: r)) with (option_map (app []) (tput PCode f r)). now rewrite omap_nil.
    + constructor; auto.
    + intros. cbn [enc flat_map enc1 app]. rewrite app_nil_r. now apply g_name with (first f w t).
  - (* brace *) intros x f d s v c v' w t f1 f' A B Ov Rv _ R q Q. pose proof (brace_print _ _ B) as P. assert (state_ok (inside x d v) f false (negb (trims v) && q)) as Qv.
    { destruct Q as (Q1 & Q2). split; rewrite braceq_inside; intros E.
      - destruct (trims v); [reflexivity|]. cbn in *. apply orb_false_iff in E as (E1 & ->). auto.
      - apply andb_prop in E as (-> & E). split; [discriminate|]. intros F. cbn. destruct (is_braceq x); [now apply Q2|]. cbn in E. subst. auto. }
    assert (state_ok x f1 d q) as Q1.
    { destruct Q as (Q1 & Q2). split; [auto|]. intros E. destruct (Q2 E) as (Q3 & Q4). split; [auto|]. intros F. apply Q4. eapply ok_flag; eauto. }
    destruct (Rv _ Qv) as (txt & u & q1 & A1 & A2 & A3 & (A4 & _) & A5); [reflexivity|discriminate|]. assert (after_name v <> None) as AN by congruence.
    assert (inside x d v <> CBase) as NB by (unfold inside; destruct (trims v), d, x; discriminate).
    apply after_cases in A as [(<- & A)|(-> & -> & o & w0 & -> & O)].
    + apply (reads_items q q x f f1 d d [Sub true s v] w t f' [Sub true s u] (L "${" ++ s ++ txt ++ L "}")); auto.
      * now rewrite !printables_app, P, A1.
      * discriminate.
      * apply pr_cast with ((OSUBST :: "{"%char :: s ++ [NUL]) ++ enc v ++ [CSUBST; "}"%char]) ((L "${" ++ s) ++ txt ++ L "}"); [cbn [enc flat_map enc1 app]; now rewrite app_nil_r, <- !app_assoc|now rewrite <- !app_assoc|].
        eapply pr_app; [exact (pr_osub true s f P)|]. eapply pr_app; [exact A2|intros r; reflexivity].
      * intros w' q2 S. cbn [app]. apply same_brace with q1; auto.
      * intros cf stk fol PL V H K. apply goes_cast with ((L "${" ++ s) ++ txt ++ L "}") ((OSUBST :: "{"%char :: s ++ [NUL]) ++ enc u ++ [CSUBST; "}"%char]); [now rewrite <- !app_assoc|cbn [enc flat_map enc1]; rewrite app_nil_r; rewrite <- !app_comm_cons, <- !app_assoc; reflexivity|].
        eapply goes_trans; [eapply g_brace; eauto|eapply goes_trans; [apply (A5 cf (dst d x stk) fol PL); intros _ E; contradiction|apply g_rbrace]].
        -- destruct A as [(_ & ->)|(w1 & _ & ->)]; reflexivity.
        -- rewrite <- app_assoc. change (L "}" ++ fol) with ("}"%char :: fol). rewrite hd_text, A3. destruct A as [(-> & ->)|(w1 & -> & _)]; reflexivity.
        -- destruct A as [(-> & ->)|(w1 & -> & E)]; [reflexivity|]. unfold trims. destruct (ceq_spec c ":"%char) as [->|]; [discriminate|]. revert E. clear. destruct c as [[] [] [] [] [] [] [] []]; vm_compute; intros E; try discriminate E; reflexivity.
    + apply (reads_items q q x f f1 d d [Sub true s (Chr ":" :: Chr o :: w0)] w t f' [Sub true s (Chr ":" :: u)] (L "${" ++ s ++ L ":" ++ txt ++ L "}")); auto.
      * now rewrite !printables_app, P, A1.
      * discriminate.
      * apply pr_cast with ((OSUBST :: "{"%char :: s ++ [NUL]) ++ [CHAR; ":"%char] ++ enc (Chr o :: w0) ++ [CSUBST; "}"%char]) ((L "${" ++ s) ++ L ":" ++ txt ++ L "}"); [cbn [enc flat_map enc1 app]; now rewrite app_nil_r, <- !app_assoc|now rewrite <- !app_assoc|].
        eapply pr_app; [exact (pr_osub true s f P)|]. eapply pr_app; [apply (pr_chr ":"); reflexivity|]. eapply pr_app; [exact A2|intros r; reflexivity].
      * intros w' q2 S. cbn [app]. apply same_brace with q1; auto. constructor. auto.
      * intros cf stk fol PL V H K. apply goes_cast with ((L "${" ++ s ++ L ":") ++ txt ++ L "}") ((OSUBST :: "{"%char :: s ++ [NUL; CHAR; ":"%char]) ++ enc u ++ [CSUBST; "}"%char]); [now rewrite <- !app_assoc|cbn [enc flat_map enc1]; rewrite app_nil_r; rewrite <- !app_comm_cons, <- !app_assoc; reflexivity|].
        eapply goes_trans; [eapply (g_colon cf x d stk s o (Chr ":" :: Chr o :: w0)); auto|eapply goes_trans; [apply (A5 cf (dst d x stk) fol PL); intros _ E; contradiction|apply g_rbrace]].
        rewrite <- app_assoc. change (L "}" ++ fol) with ("}"%char :: fol). rewrite hd_text, A3. reflexivity.
  - (* pat *) intros x f k ps w t f1 f' X K _ RP _ R q Q. assert (is_braceq x = false) as XB by (destruct x; discriminate || reflexivity). assert (q = false) as -> by (apply Q; auto). destruct RP as (txt & ps' & A1 & A2 & A3 & A4). assert (printable k = true /\ tputc k = [k]) as (PK & TK) by (cbn in K; repeat (destruct K as [<-|K]; [split; reflexivity|]); contradiction).
    apply (reads_items false false x f f1 false false [Pat k ps] w t f' [Pat k ps'] ([k; "("%char] ++ txt)); auto.
    + split; [auto|congruence].
    + now rewrite printables_app, A1; cbn; rewrite PK.
    + discriminate.
    + intros r. specialize (A2 r). cbn [enc flat_map enc1 app] in *. rewrite app_nil_r. transitivity (option_map (app (tputc k ++ L "(")) (tput PCode f ((encp ps ++ [CPAT]) ++ r))); [reflexivity|]. rewrite A2, omap_app, TK. reflexivity.
    + intros w' q2 S. cbn [app]. apply same_pat with false; auto.
    + intros cf stk fol PL V H HK. apply goes_cast with ([k; "("%char] ++ txt) ([OPAT; k] ++ encp ps' ++ [CPAT]); [reflexivity|cbn [enc flat_map enc1]; now rewrite app_nil_r|]. eapply goes_trans; [now apply g_pat|]. now apply A4.
  - (* one *) intros f w f' _ R. destruct (R false) as (txt & u & q2 & A1 & A2 & A3 & (A4 & AQ) & A5); [split; [auto|discriminate]|reflexivity|discriminate|]. exists (txt ++ L ")"), (P1 u). split; [|split; [|split]].
    + now rewrite printables_app, A1.
    + cbn [encp]. fold (enc w). eapply pr_app; [exact A2|intros r; reflexivity].
    + constructor. rewrite <- (AQ eq_refl) at 2. exact A4.
    + intros cf stk rest PL. cbn [encp]. fold (enc u). eapply goes_trans; [apply (A5 cf stk rest PL); discriminate|apply g_rparen].
  - (* cons *) intros f w ps f1 f' _ R _ RP. destruct (R false) as (txt & u & q2 & A1 & A2 & A3 & (A4 & AQ) & A5); [split; [auto|discriminate]|reflexivity|discriminate|]. destruct RP as (txt2 & us & B1 & B2 & B3 & B4). exists (txt ++ L "|" ++ txt2), (PCons u us). split; [|split; [|split]].
    + now rewrite !printables_app, A1, B1.
    + cbn [encp]. fold (enc w). rewrite <- app_assoc. eapply pr_app; [exact A2|]. change (pr ([SPAT] ++ encp ps ++ [CPAT]) f1 (L "|" ++ txt2) f'). eapply pr_app; [intros r; reflexivity|exact B2].
    + rewrite (AQ eq_refl) in A4. apply samep_cons with false; auto.
    + intros cf stk rest PL. cbn [encp]. fold (enc u). rewrite <- app_assoc. eapply goes_trans; [apply (A5 cf stk (txt2 ++ rest) PL); discriminate|].
      change ((SPAT :: encp us) ++ [CPAT]) with ([SPAT] ++ encp us ++ [CPAT]). eapply goes_trans; [apply g_bar|apply B4; auto].
Qed.
