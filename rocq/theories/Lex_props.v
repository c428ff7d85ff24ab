(** C24: quoting makes characters literal. *)
From Verif Require Import Base Word_model Word_spec Src_model Src_spec Src_proof Src_props Lex_model Lex_sim Lex_spec.
Local Open Scope nat_scope.

Definition seg_items (s : seg) : word :=
  match s with
  | Single t => OQ :: map Qch t ++ [CQ]
  | Double t => OQ :: map (fun c => if dq_special c then Qch c else Chr c) t ++ [CQ]
  | Back c => [Qch c]
  | Plain c => [Chr c]
  end.
Definition items_of (w : list seg) : word := flat_map seg_items w.
Lemma den_app_map : forall (g : char -> item) (t : cstr) w u,
  (forall c, g c = Qch c \/ g c = Chr c) -> denotes true w u -> denotes true (map g t ++ w) (t ++ u).
Proof.
  intros g t w u G D. induction t as [|c t IH]; [exact D|]. cbn. destruct (G c) as [->| ->]; now constructor.
Qed.
Lemma items_denote : forall w, Forall seg_ok w -> denotes false (items_of w) (text_of_segs w).
Proof.
  induction w as [|s w IH]; intros F; [constructor|]. inversion F as [|x y O F']; subst. specialize (IH F').
  destruct s as [t|t|c|c]; unfold items_of, text_of_segs in *; cbn [flat_map seg_items seg_text].
  - cbn [app]. constructor. rewrite <- app_assoc. apply den_app_map; [auto|]. now constructor.
  - cbn [app]. constructor. rewrite <- app_assoc. apply den_app_map; [|now constructor].
    intros c. destruct (dq_special c); auto.
  - now constructor.
  - now constructor.
Qed.

(** * The loop over the pieces *)
Lemma loop_S : forall n cf stk out f l,
  frun (loop (S n) cf stk out) f l =
  frun (Get (fun c => if is_nul c || (base_like (top stk) && lex1 c) then Ret (c, stk, out)
    else bind (step n cf c stk out) (fun r => match r with Cont stk out => loop n cf stk out | Stop c stk out => Ret (c, stk, out) end))) f l.
Proof. reflexivity. Qed.
Lemma is_nul_no : forall c, c <> NUL -> is_nul c = false.
Proof. intros c. apply is_nul_false. Qed.
Lemma ceq_no : forall a b : char, a <> b -> ceq a b = false.
Proof. intros a b. apply ceq_false. Qed.

Lemma enc_app : forall a b, enc (a ++ b) = enc a ++ enc b.
Proof. intros a b. unfold enc. apply flat_map_app. Qed.

(** Inside single quotes. *)
Lemma loop_single : forall t n cf out rest stk l,
  ~ In "'"%char t -> ~ In NUL t -> top stk <> SBRACEQ ->
  length t < n ->
  exists l', frun (loop n cf (SSQUOTE :: stk) out) (Flat (t ++ "'"%char :: rest) 0 1) l =
             frun (loop (n - S (length t)) cf stk (out ++ enc (map Qch t ++ [CQ]))) (Flat rest 0 0) l'.
Proof.
  induction t as [|c t IH]; intros n cf out rest stk l Q N B H; (destruct n as [|n]; [cbn in H; lia|]).
  - exists (Some "'"%char). rewrite loop_S. cbn [app]. rewrite fget_raw. cbn [top base_like andb].
    change (is_nul "'") with false. cbn [orb]. rewrite frun_bind. cbn [step]. change (ceq "'" "'") with true. cbn iota.
    destruct (top stk) eqn:E; try congruence.
    all: cbn [frun pred]; cbn [length Nat.sub]; rewrite ?Nat.sub_0_r; reflexivity.
  - assert (c <> "'"%char) by (intros ->; apply Q; now left).
    assert (c <> NUL) by (intros ->; apply N; now left).
    destruct (IH n cf (out ++ [QCHAR; c]) rest stk (Some c)) as [l' E].
    { intros X. apply Q. now right. } { intros X. apply N. now right. } { exact B. } { cbn in H. lia. }
    exists l'. rewrite loop_S. cbn [app]. rewrite fget_raw. cbn [top base_like andb].
    rewrite is_nul_no by assumption. cbn [orb]. rewrite frun_bind. cbn [step]. rewrite ceq_no by assumption.
    cbn [frun cont]. rewrite E. cbn [length Nat.sub map app enc flat_map enc1].
    rewrite <- app_assoc. reflexivity.
Qed.

(** Inside double quotes. *)
Lemma loop_double : forall t n cf out rest stk k l,
  heredoc cf = false -> ~ In NUL t -> ord k -> length t < n ->
  exists l',
    frun (loop n cf (SDQUOTE :: stk) out) (Flat (flat_map (fun c => if dq_special c then ["\"%char; c] else [c]) t ++ """"%char :: rest) k 0) l =
    frun (loop (n - S (length t)) cf stk (out ++ enc (map (fun c => if dq_special c then Qch c else Chr c) t ++ [CQ]))) (Flat rest 0 0) l'.
Proof.
  induction t as [|c t IH]; intros n cf out rest stk k l Hd N K H; (destruct n as [|n]; [cbn in H; lia|]).
  - exists (Some """"%char). rewrite loop_S. cbn [flat_map app]. rewrite fget_plain by (assumption || discriminate).
    cbn [top base_like andb]. change (is_nul """") with false. cbn [orb]. rewrite frun_bind. cbn [step].
    change (ceq """" """") with true. cbn iota. cbn [cont frun length Nat.sub]. rewrite Nat.sub_0_r. reflexivity.
  - assert (Nc : c <> NUL) by (intros ->; apply N; now left).
    assert (Nt : ~ In NUL t) by (intros X; apply N; now right).
    cbn [flat_map map]. destruct (dq_special c) eqn:D.
    + assert (c <> NL) by (intros ->; discriminate).
      destruct (IH n cf (out ++ [QCHAR; c]) rest stk 2 (Some c) Hd Nt) as [l' E]; [discriminate|cbn in H; lia|].
      exists l'.
      rewrite loop_S. cbn [app]. rewrite fget_bs by assumption.
      cbn [top base_like andb]. change (is_nul "\") with false. cbn [orb]. rewrite frun_bind. cbn [step].
      change (ceq "\" """") with false. cbn iota. unfold subst. change (ceq "\" "\") with true. cbn iota.
      rewrite frun_bind. unfold get. rewrite fget_esc. cbn [frun].
      assert (X : (if ceq c "\" || ceq c "$" || ceq c "`" then cont (SDQUOTE :: stk) (out ++ [QCHAR; c])
              else if ceq c """" then if heredoc cf then
                 (if unescape cf then cont (SDQUOTE :: stk) (out ++ [QCHAR; c]) else if is_nul c then cont (SDQUOTE :: stk) out
                  else cont (SDQUOTE :: stk) (out ++ [CHAR; "\"%char; CHAR; c])) else cont (SDQUOTE :: stk) (out ++ [QCHAR; c])
              else if unescape cf then cont (SDQUOTE :: stk) (out ++ [QCHAR; c]) else if is_nul c then cont (SDQUOTE :: stk) out
                  else cont (SDQUOTE :: stk) (out ++ [CHAR; "\"%char; CHAR; c])) = cont (SDQUOTE :: stk) (out ++ [QCHAR; c])).
      { rewrite Hd. unfold dq_special, mem in D. cbn [L String.list_ascii_of_string existsb] in D.
        destruct (ceq c "\") eqn:E1; [reflexivity|]. destruct (ceq c "$") eqn:E2; [reflexivity|].
        destruct (ceq c "`") eqn:E3; [reflexivity|]. cbn [orb]. destruct (ceq c """") eqn:E4; [reflexivity|].
        discriminate. }
      rewrite X. cbn [cont frun]. rewrite E. cbn [length Nat.sub app enc flat_map enc1]. rewrite <- app_assoc. reflexivity.
    + assert (Q : c <> "\"%char /\ c <> """"%char /\ c <> "$"%char /\ c <> "`"%char)
        by (repeat split; intros ->; discriminate).
      destruct Q as [Q1 [Q2 [Q3 Q4]]].
      destruct (IH n cf (out ++ [CHAR; c]) rest stk 0 (Some c) Hd Nt) as [l' E]; [discriminate|cbn in H; lia|].
      exists l'.
      rewrite loop_S. cbn [app]. rewrite fget_plain by assumption.
      cbn [top base_like andb]. rewrite is_nul_no by assumption. cbn [orb]. rewrite frun_bind. cbn [step].
      rewrite ceq_no by assumption. unfold subst. rewrite !ceq_no by assumption. cbn [cont frun]. rewrite E.
      cbn [length Nat.sub app enc flat_map enc1]. rewrite <- app_assoc. reflexivity.
Qed.

(** Looking at the next character. *)
Definition peekable (t : cstr) : Prop :=
  match t with
  | [] => True
  | c :: r => c <> NUL /\ (c = "\"%char -> match r with d :: _ => d <> NL | [] => True end)
  end.
Lemma fget_any : forall t k l {A} (g : char -> prog A), ord k -> peekable t ->
  frun (Get g) (Flat t k 0) l =
  match t with
  | [] => frun (g NUL) (Flat [] 0 0) (Some NUL)
  | c :: r => frun (g c) (Flat r (if ceq c "\" then 1 else 0) 0) (Some c)
  end.
Proof.
  intros t k l A g K P. destruct t as [|c r]; [now apply fget_eof|].
  destruct (ceq_spec c "\"%char) as [->|N]; [|now rewrite fget_plain].
  destruct P as [_ P]. specialize (P eq_refl). destruct r as [|d r]; [|now rewrite fget_bs].
  cbn [frun]. unfold fget. cbn [fign fskip ftext]. change (0 <? 0) with false. cbn iota.
  destruct (Nat.eqb_spec k 1) as [E|_]; [contradiction|]. reflexivity.
Qed.
Lemma peek_back : forall t k l {A} (f : char -> prog A) (p : prog A), ord k -> peekable t ->
  (forall c, hd_error t = Some c -> f c = Unget c p) -> (t = [] -> f NUL = Unget NUL p) ->
  frun (Get f) (Flat t k 0) l = frun p (Flat t 0 0) None.
Proof.
  intros t k l A f p K P H1 H2. rewrite fget_any by assumption. destruct t as [|c r].
  - rewrite H2 by reflexivity. reflexivity.
  - rewrite H1 by reflexivity. cbn [frun]. rewrite ceq_refl. unfold funget. cbn [ftext fskip fign].
    destruct P as [P _]. rewrite is_nul_no by assumption. destruct (ceq c "\"); reflexivity.
Qed.
Lemma hd_seg : forall w rest, Forall seg_ok w -> ends_word rest -> peekable (src_of w ++ rest).
Proof.
  intros [|s w] rest F E.
  - cbn. destruct rest as [|c r]; [exact I|]. cbn in E.
    repeat (destruct E as [E|E]; [subst c; split; [discriminate|intros X; discriminate]|]). contradiction.
  - inversion F as [|x y O F']; subst. destruct s as [t|t|c|c]; cbn.
    + split; [discriminate|intros X; discriminate].
    + split; [discriminate|intros X; discriminate].
    + split; [discriminate|]. intros _. apply O.
    + cbn in O. split; intros ->; discriminate.
Qed.
Definition normal (cf : flags) : Prop := heredoc cf = false.
Definition ext_ok (w : list seg) (rest : cstr) : Prop :=
  hd_error rest <> Some "("%char \/ (forall u c, w = u ++ [Plain c] -> ~ In c (L "@+!")).
Lemma hd_not_paren : forall w rest, w <> [] \/ hd_error rest <> Some "("%char -> Forall seg_ok w ->
  hd_error (src_of w ++ rest) <> Some "("%char.
Proof.
  intros [|s w] rest H F.
  - destruct H as [H|H]; [contradiction|exact H].
  - inversion F as [|x y O F']; subst. destruct s as [t|t|c|c]; cbn; try discriminate.
    intros X. injection X as ->. discriminate O.
Qed.

(** A character that is not special, in SBASE. *)
Lemma step_plain : forall n cf c out t k l, special c = false -> ord k -> peekable t ->
  (In c (L "@+!") -> hd_error t <> Some "("%char) ->
  exists l', frun (step n cf c [SBASE] out) (Flat t k 0) l = Some (inl (Cont [SBASE] (out ++ [CHAR; c])), Flat t (if mem c (L "@+!") then 0 else k) 0, l').
Proof.
  intros n cf c out t k l Sp K P X. cbn [step].
  assert (NS : forall d, special d = true -> ceq c d = false) by (intros d D; apply ceq_false; intros ->; congruence).
  rewrite (NS "["%char) by reflexivity. cbn [andb]. unfold sbase1.
  assert (M : mem c (L "*@+?!") = mem c (L "@+!")).
  { unfold mem. cbn [L String.list_ascii_of_string existsb]. rewrite (NS "*"%char), (NS "?"%char) by reflexivity. reflexivity. }
  rewrite M.
  assert (S2 : forall l0 k0 t0, frun (sbase2 n cf c [SBASE] out) (Flat t0 k0 0) l0 = Some (inl (Cont [SBASE] (out ++ [CHAR; c])), Flat t0 k0 0, l0)).
  { intros. unfold sbase2, subst. rewrite !NS by reflexivity. reflexivity. }
  destruct (mem c (L "@+!")) eqn:E.
  - exists None. unfold get. cbn [bind].
    rewrite (peek_back t k l _ (sbase2 n cf c [SBASE] out)); try assumption.
    + apply S2.
    + intros d D. assert (d <> "("%char). { intros ->. apply X; [|exact D]. unfold mem in E. apply existsb_exists in E.
      destruct E as [y [E1 E2]]. apply ceq_true in E2. now subst y. }
      rewrite ceq_no by assumption. reflexivity.
    + reflexivity.
  - exists l. apply S2.
Qed.

Lemma loop_segs : forall w n cf out rest k l,
  Forall seg_ok w -> ends_word rest -> ext_ok w rest -> normal cf -> ord k -> length (src_of w) < n ->
  exists m k' l', m <= length (src_of w) /\ ord k' /\
    frun (loop n cf [SBASE] out) (Flat (src_of w ++ rest) k 0) l =
    frun (loop (n - m) cf [SBASE] (out ++ enc (items_of w))) (Flat rest k' 0) l'.
Proof.
  induction w as [|s w IH]; intros n cf out rest k l F E X Hn K H.
  - exists 0, k, l. cbn [src_of items_of flat_map enc app length]. rewrite app_nil_r, Nat.sub_0_r.
    repeat split; auto.
  - inversion F as [|x y O F']; subst.
    assert (X' : ext_ok w rest).
    { destruct X as [X|X]; [now left|right]. intros u c ->. apply (X (s :: u) c). reflexivity. }
    assert (PK : peekable (src_of w ++ rest)) by now apply hd_seg.
    unfold src_of in *. cbn [flat_map] in *. rewrite app_length in H. rewrite <- app_assoc.
    unfold items_of in *. cbn [flat_map]. rewrite enc_app, app_assoc.
    destruct n as [|n]; [lia|].
    destruct s as [t|t|c|c].
    + (* single *)
      cbn [seg_src app] in *. change (L "'") with ["'"%char] in *. destruct O as [O1 O2].
      rewrite loop_S. rewrite fget_plain by (assumption || discriminate). cbn [top base_like].
      change (is_nul "'") with false. change (lex1 "'") with false. cbn [andb orb]. rewrite frun_bind. cbn [step].
      change (ceq "'" "[") with false. cbn [andb]. unfold sbase1. change (mem "'" (L "*@+?!")) with false. cbn iota.
      unfold sbase2. change (ceq "'" "\") with false. change (ceq "'" "'") with true. cbn iota.
      rewrite Hn. cbn [top orb cont frun].
      cbn [length] in H. rewrite app_length in H. cbn [length] in H.
      destruct (loop_single t n cf (out ++ [OQUOTE]) (flat_map seg_src w ++ rest) [SBASE] (Some "'"%char) O1 O2) as [l1 E1];
        [discriminate|lia|].
      cbn [ftext fskip fign]. rewrite <- ?app_assoc. cbn [app]. rewrite <- ?app_assoc. cbn [app].
      rewrite E1.
      destruct (IH (n - S (length t)) cf ((out ++ [OQUOTE]) ++ enc (map Qch t ++ [CQ])) rest 0 l1 F' E X' Hn) as [m [k' [l' [M1 [M2 M3]]]]];
        [discriminate|lia|]. rewrite M3.
      exists (S (S (length t)) + m), k', l'. split; [cbn [length]; rewrite ?app_length; cbn [length]; rewrite ?app_length; lia|]. split; [exact M2|].
      replace (S n - (S (S (length t)) + m)) with (n - S (length t) - m) by lia.
      cbn [seg_items enc flat_map enc1]. rewrite <- !app_assoc. reflexivity.
    + (* double *)
      cbn [seg_src app] in *. cbn in O.
      rewrite loop_S. rewrite fget_plain by (assumption || discriminate). cbn [top base_like].
      change (is_nul """") with false. change (lex1 """") with false. cbn [andb orb]. rewrite frun_bind. cbn [step].
      change (ceq """" "[") with false. cbn [andb]. unfold sbase1. change (mem """" (L "*@+?!")) with false. cbn iota.
      unfold sbase2. change (ceq """" "\") with false. change (ceq """" "'") with false. change (ceq """" """") with true. cbn iota.
      cbn [cont frun].
      cbn [length] in H. rewrite app_length in H. cbn [length] in H.
      set (dsrc := flat_map (fun c => if dq_special c then ["\"%char; c] else [c]) t) in *.
      assert (Ld : length t <= length dsrc).
      { unfold dsrc. clear. induction t as [|c t IHt]; [reflexivity|]. cbn [flat_map]. rewrite app_length.
        destruct (dq_special c); cbn [length]; lia. }
      rewrite <- ?app_assoc. cbn [app]. rewrite <- ?app_assoc. cbn [app].
      destruct (loop_double t n cf (out ++ [OQUOTE]) (flat_map seg_src w ++ rest) [SBASE] 0 (Some """"%char) Hn O) as [l1 E1];
        [discriminate|lia|].
      fold dsrc in E1. rewrite E1.
      destruct (IH (n - S (length t)) cf ((out ++ [OQUOTE]) ++ enc (map (fun c => if dq_special c then Qch c else Chr c) t ++ [CQ])) rest 0 l1 F' E X' Hn) as [m [k' [l' [M1 [M2 M3]]]]];
        [discriminate|lia|]. rewrite M3.
      exists (S (S (length t)) + m), k', l'. split; [cbn [length]; rewrite ?app_length; cbn [length]; rewrite ?app_length; lia|]. split; [exact M2|].
      replace (S n - (S (S (length t)) + m)) with (n - S (length t) - m) by lia.
      cbn [seg_items enc flat_map enc1]. rewrite <- !app_assoc. reflexivity.
    + (* backslash *)
      cbn [seg_src app] in *. destruct O as [O1 O2].
      rewrite loop_S. rewrite fget_bs by assumption. cbn [top base_like].
      change (is_nul "\") with false. change (lex1 "\") with false. cbn [andb orb]. rewrite frun_bind. cbn [step].
      change (ceq "\" "[") with false. cbn [andb]. unfold sbase1. change (mem "\" (L "*@+?!")) with false. cbn iota.
      unfold sbase2. change (ceq "\" "\") with true. cbn iota. rewrite frun_bind. unfold get. rewrite fget_esc. cbn [frun].
      rewrite is_nul_no by assumption. cbn [cont frun]. cbn [length] in H.
      destruct (IH n cf (out ++ [QCHAR; c]) rest 2 (Some c) F' E X' Hn) as [m [k' [l' [M1 [M2 M3]]]]];
        [discriminate|lia|]. rewrite M3.
      exists (S m), k', l'. split; [cbn [length]; lia|]. split; [exact M2|]. rewrite <- ?app_assoc. reflexivity.
    + (* plain *)
      cbn [seg_src app] in *. change (special c = false) in O.
      assert (NS : forall d, special d = true -> c <> d) by (intros d D ->; congruence).
      rewrite loop_S. rewrite fget_plain by (assumption || now apply NS). cbn [top base_like].
      rewrite is_nul_no by now apply NS.
      assert (LX : lex1 c = false).
      { unfold lex1. rewrite is_nul_no by now apply NS. cbn [orb]. apply Bool.not_true_iff_false. intros M. apply mem_In in M.
        cbn in M. repeat (destruct M as [M|M]; [revert M; apply not_eq_sym, NS; reflexivity|]). contradiction. }
      rewrite LX. cbn [andb orb]. rewrite frun_bind.
      destruct (step_plain n cf c out (flat_map seg_src w ++ rest) 0 (Some c) O) as [l1 E1].
      { discriminate. } { exact PK. }
      { intros I. apply hd_not_paren; [|exact F']. destruct w as [|s w]; [right|left; discriminate].
        destruct X as [X|X]; [exact X|]. exfalso. apply (X [] c eq_refl). exact I. }
      rewrite E1. cbn [length] in H.
      destruct (IH n cf (out ++ [CHAR; c]) rest (if mem c (L "@+!") then 0 else 0) l1 F' E X' Hn) as [m [k' [l' [M1 [M2 M3]]]]];
        [destruct (mem c (L "@+!")); discriminate|lia|]. rewrite M3.
      exists (S m), k', l'. split; [cbn [length]; lia|]. split; [exact M2|]. rewrite <- ?app_assoc. reflexivity.
Qed.

(** * The whole word *)
Lemma unquoted_none : forall w n, (exists s, In s w /\ seg_quoted s = true) -> unquoted n (enc (items_of w)) = None.
Proof.
  induction w as [|s w IH]; intros n [q [I Q]]; [contradiction|].
  unfold items_of. cbn [flat_map]. rewrite enc_app. destruct s as [t|t|c|c].
  - cbn [seg_items enc flat_map enc1 app]. destruct t; (destruct n; reflexivity).
  - cbn [seg_items enc flat_map enc1 app]. destruct t as [|d t]; [destruct n|]; cbn [flat_map map app].
    + destruct (enc (flat_map seg_items w)); reflexivity.
    + destruct (enc (flat_map seg_items w)); reflexivity.
    + destruct (dq_special d); (destruct n; reflexivity).
  - cbn. destruct n; reflexivity.
  - cbn [seg_items enc flat_map enc1 app unquoted]. destruct n as [|n]; [reflexivity|]. change (ceq CHAR CHAR) with true. cbn iota.
    change (option_map (cons c) (unquoted n (enc (items_of w))) = None).
    rewrite IH; [reflexivity|]. destruct I as [<-|I]; [discriminate|]. now exists q.
Qed.
Lemma ident_quoted : forall w, (exists s, In s w /\ seg_quoted s = true) -> ident_of (enc (items_of w)) = [].
Proof. intros w H. unfold ident_of. now rewrite unquoted_none. Qed.

Lemma skip_blanks_ok : forall b n t k l, Forall (fun c => c = SP \/ c = TAB) b -> length b < n -> ord k -> peekable t ->
  match t with c :: _ => c <> SP /\ c <> TAB | [] => True end ->
  exists l', frun (skip_blanks n) (Flat (b ++ t) k 0) l =
    match t with
    | [] => Some (inl NUL, Flat [] 0 0, l')
    | c :: r => Some (inl c, Flat r (if ceq c "\" then 1 else 0) 0, l')
    end /\ l' = Some (match t with c :: _ => c | [] => NUL end).
Proof.
  induction b as [|c b IH]; intros n t k l F H K P N; (destruct n as [|n]; [cbn in H; lia|]).
  - cbn [app skip_blanks]. unfold get. cbn [bind]. rewrite fget_any by assumption. destruct t as [|c r].
    + eexists. split; reflexivity.
    + destruct N as [N1 N2]. rewrite !ceq_no by assumption. eexists. split; reflexivity.
  - inversion F as [|x y O F']; subst. cbn [app skip_blanks]. unfold get. cbn [bind].
    rewrite fget_plain by (assumption || destruct O as [-> | ->]; discriminate).
    assert (X : ceq c SP || ceq c TAB = true) by (destruct O as [-> | ->]; reflexivity). rewrite X.
    apply IH; auto; [cbn in H; lia|discriminate].
Qed.

Lemma related_clear : forall f l i, related f l i -> related f l (clear_flag i).
Proof.
  intros f l [[|[k b a fa fe] st] bk g] [R U]; [split; assumption|].
  split.
  - destruct R as [R1 [R2 [R3 R4]]]. split; [|split; [|split]]; try assumption.
  - intros c E. specialize (U c E). unfold ungettable in *. cbn [srcs clear_flag] in *.
    destruct (is_nul c).
    + destruct U as [s [r X]]. injection X as E1 E2 E3 E4 E5 E6. subst.
      exists (Src KEof [] [] false (f_end s)), r. reflexivity.
    + destruct U as [[s [r [b' [X1 X2]]]]|[Y [s [r [X1 [X2 X3]]]]]].
      * left. injection X1 as <- <-. eexists _, _, _. split; [reflexivity|exact X2].
      * right. split; [exact Y|]. injection X1 as <- <-. eexists _, _. split; [reflexivity|]. split; [exact X2|exact X3].
Qed.
Lemma fresh_related : forall st k g, fresh st -> related (Flat (text_of st) 0 0) None (Input (srcs (Input st k g)) 0 0).
Proof.
  intros st k g F. split; [|intros c E; discriminate]. split; [|split; [|split]]; try reflexivity. now apply fresh_wf.
Qed.
Lemma src_hd : forall w rest, w <> [] -> Forall seg_ok w ->
  match src_of w ++ rest with c :: _ => c <> SP /\ c <> TAB /\ c <> "#"%char | [] => False end.
Proof.
  intros [|s w] rest N F; [contradiction|]. inversion F as [|x y O F']; subst.
  destruct s as [t|t|c|c]; cbn [src_of flat_map seg_src app]; try (repeat split; discriminate).
  cbn [seg_ok] in O. repeat split; intros ->; discriminate.
Qed.

Lemma lex_segs : forall cf n sh blanks w rest l,
  Forall (fun c => c = SP \/ c = TAB) blanks -> w <> [] -> Forall seg_ok w -> ends_word rest -> ext_ok w rest ->
  oneword cf = false -> letexpr cf = false -> heredelim cf = false -> heredoc cf = false ->
  length (blanks ++ src_of w ++ rest) < n ->
  (w = [] \/ (exists s, In s w /\ seg_quoted s = true) \/
   match rest with c :: _ => c <> "<"%char /\ c <> ">"%char | [] => True end) ->
  exists f' l', 
    frun (lex_start n cf) (Flat (blanks ++ src_of w ++ rest) 0 0) l = Some (inl tt, Flat (src_of w ++ rest) 0 0, None) /\
    frun (lex_word n sh cf) (Flat (src_of w ++ rest) 0 0) None =
      Some (inl (Some (LWORD (enc (items_of w) ++ [EOS]) (ident_of (enc (items_of w))))), f', l') /\
    ftext f' = rest.
Proof.
  intros cf n sh blanks w rest l Fb Nw F E X O1 O2 O3 O4 H G.
  assert (P : peekable (src_of w ++ rest)) by now apply hd_seg.
  pose proof (src_hd w rest Nw F) as Hd.
  assert (Lb : length blanks + (length (src_of w) + length rest) < n) by (rewrite !app_length in H; exact H).
  assert (A : frun (lex_start n cf) (Flat (blanks ++ src_of w ++ rest) 0 0) l = Some (inl tt, Flat (src_of w ++ rest) 0 0, None)).
  { unfold lex_start. rewrite O1, O2. cbn [orb]. unfold start_word. rewrite frun_bind.
    destruct (skip_blanks_ok blanks n (src_of w ++ rest) 0 l Fb) as [l1 [E1 E2]]; auto; try discriminate; [lia| |].
    - destruct (src_of w ++ rest); tauto.
    - rewrite E1. destruct (src_of w ++ rest) as [|c r]; [contradiction|]. destruct Hd as [_ [_ Hd]].
      destruct P as [P _]. rewrite ceq_no by assumption. subst l1. cbn [frun]. rewrite ceq_refl.
      unfold funget. cbn [ftext fskip fign]. rewrite is_nul_no by assumption. destruct (ceq c "\"); reflexivity. }
  destruct (loop_segs w n cf [] rest 0 None F E X O4) as [m [k' [l1 [M1 [M2 M3]]]]]; [discriminate|lia|].
  cbn [app] in M3.
  assert (PR : peekable rest) by (exact (hd_seg [] rest (Forall_nil _) E)).
  assert (N1 : exists q, n - m = S q) by (exists (n - m - 1); lia). destruct N1 as [q Eq]. rewrite Eq in M3.
  rewrite loop_S in M3. rewrite fget_any in M3 by assumption.
  assert (Hne : exists a b c, enc (items_of w) = a :: b :: c \/ (enc (items_of w) = [a])).
  { destruct w as [|s w]; [contradiction|]. unfold items_of. cbn [flat_map]. rewrite enc_app.
    destruct s as [t|t|c|c]; cbn [seg_items enc flat_map enc1 app].
    - destruct t; cbn; eexists _, _, _; left; reflexivity.
    - destruct t as [|d t]; cbn [map flat_map app]; [eexists _, _, _; left; reflexivity|].
      destruct (dq_special d); eexists _, _, _; left; reflexivity.
    - eexists _, _, _; left; reflexivity.
    - eexists _, _, _; left; reflexivity. }
  assert (FIN : forall c f, (rest = [] /\ c = NUL \/ hd_error rest = Some c) -> 
     frun (finish n sh c [SBASE] (enc (items_of w))) f (Some c) =
     Some (inl (Some (LWORD (enc (items_of w) ++ [EOS]) (ident_of (enc (items_of w))))), funget c f, None)).
  { intros c f Hc. unfold finish. cbn [base_like].
    assert (W : frun (Unget c (Ret (Some (LWORD (enc (items_of w) ++ [EOS]) (ident_of (enc (items_of w))))))) f (Some c) =
      Some (inl (Some (LWORD (enc (items_of w) ++ [EOS]) (ident_of (enc (items_of w))))), funget c f, None)).
    { cbn [frun]. now rewrite ceq_refl. }
    destruct (enc (items_of w)) as [|a [|b [|d r]]] eqn:Ee.
    - destruct Hne as [a [b [d [X1|X1]]]]; discriminate.
    - exact W.
    - destruct ((ceq c "<" || ceq c ">") && ceq a CHAR && isdigit b) eqn:D; [|exact W].
      apply andb_prop in D. destruct D as [D D3]. apply andb_prop in D. destruct D as [D1 D2].
      exfalso. apply ceq_true in D2. subst a.
      destruct G as [G|[G|G]]; [contradiction| |].
      + pose proof (unquoted_none w 1 G) as Q. rewrite Ee in Q. cbn in Q. discriminate.
      + destruct Hc as [[-> ->]|Hc]; [discriminate|]. destruct rest as [|c' r]; [discriminate|]. injection Hc as ->.
        destruct G as [G1 G2]. rewrite !ceq_no in D1 by assumption. discriminate.
    - exact W. }
  assert (LW : forall f' l', frun (loop n cf [SBASE] []) (Flat (src_of w ++ rest) 0 0) None = Some (inl (match rest with c :: _ => c | [] => NUL end, [SBASE], enc (items_of w)), f', l') ->
     frun (lex_word n sh cf) (Flat (src_of w ++ rest) 0 0) None = frun (finish n sh (match rest with c :: _ => c | [] => NUL end) [SBASE] (enc (items_of w))) f' l').
  { intros f' l' Q. unfold lex_word. rewrite O1, O2, O3. cbn [negb andb]. rewrite frun_bind, Q. reflexivity. }
  destruct rest as [|c r].
  - exists (Flat [] 0 0), None. split; [exact A|]. split; [|reflexivity].
    rewrite (LW (Flat [] 0 0) (Some NUL)) by exact M3. rewrite FIN by now left. reflexivity.
  - assert (LX : is_nul c || lex1 c = true).
    { cbn in E. repeat (destruct E as [E|E]; [subst c; reflexivity|]). contradiction. }
    cbn [top base_like andb] in M3. rewrite LX in M3. cbn [frun] in M3.
    exists (funget c (Flat r (if ceq c "\" then 1 else 0) 0)), None. split; [exact A|]. split.
    + rewrite (LW (Flat r (if ceq c "\" then 1 else 0) 0) (Some c)) by exact M3. apply FIN. now right.
    + unfold funget. cbn [ftext]. destruct PR as [PR _]. now rewrite is_nul_no.
Qed.

(** A word written with quotes is one word, which stands for exactly the text meant; what follows
    it is left to be read.  [n] only has to exceed the length of the input. *)
Theorem c24_quoted_word : forall e cf hs st blanks w rest n rounds k g,
  fresh st -> text_of st = blanks ++ src_of w ++ rest ->
  Forall (fun c => c = SP \/ c = TAB) blanks -> Forall seg_ok w -> (exists s, In s w /\ seg_quoted s = true) ->
  ends_word rest -> ext_ok w rest ->
  oneword cf = false -> letexpr cf = false -> heredelim cf = false -> heredoc cf = false ->
  length (text_of st) < n -> 0 < rounds ->
  exists items i, yylex rounds n e cf hs (Input st k g) = LTok (LWORD (enc items ++ [EOS]) []) [] i /\
    denotes false items (text_of_segs w) /\ text_of (srcs i) = rest.
Proof.
  intros e cf hs st blanks w rest n rounds k g F T Fb Fw Q E X O1 O2 O3 O4 H R.
  assert (Nw : w <> []) by (destruct Q as [s [I _]]; intros ->; contradiction).
  destruct rounds as [|rounds]; [lia|]. cbn [yylex].
  pose proof (fresh_related st k g F) as R0. rewrite T in R0, H.
  set (cf' := fun b : bool => if b then with_alias cf else cf).
  assert (LS : forall b, exists f' l', 
    frun (lex_start n (cf' b)) (Flat (blanks ++ src_of w ++ rest) 0 0) None = Some (inl tt, Flat (src_of w ++ rest) 0 0, None) /\
    frun (lex_word n (fsh e) (cf' b)) (Flat (src_of w ++ rest) 0 0) None =
      Some (inl (Some (LWORD (enc (items_of w) ++ [EOS]) (ident_of (enc (items_of w))))), f', l') /\
    ftext f' = rest).
  { intros b. apply lex_segs; auto; destruct b; assumption. }
  destruct (LS false) as [f1 [l1 [A1 _]]]. cbn [cf'] in A1.
  destruct (sim _ _ _ _ _ _ _ R0 A1) as [i1 [S1 R1]]. cbn [srcs] in S1 |- *. rewrite S1.
  apply related_clear in R1.
  set (b := top_flag i1 && (negb (posix e) || cmdword cf)).
  destruct (LS b) as [f2 [l2 [_ [A2 A3]]]].
  destruct (sim _ _ _ _ _ _ _ R1 A2) as [i2 [S2 R2]]. unfold cf' in S2. rewrite S2.
  rewrite ident_quoted by exact Q.
  exists (items_of w), i2. split; [reflexivity|]. split; [now apply items_denote|].
  destruct R2 as [[R2 _] _]. rewrite R2. exact A3.
Qed.
Print Assumptions c24_quoted_word.

(** The same without quotes, for words that are neither reserved words nor aliases nor the number
    of a redirection. *)
Theorem c24_plain_word : forall e cf hs st blanks w rest n rounds k g,
  fresh st -> text_of st = blanks ++ src_of w ++ rest ->
  Forall (fun c => c = SP \/ c = TAB) blanks -> w <> [] -> Forall seg_ok w ->
  match rest with c :: _ => c <> "<"%char /\ c <> ">"%char | [] => True end ->
  ends_word rest -> ext_ok w rest ->
  oneword cf = false -> letexpr cf = false -> heredelim cf = false -> heredoc cf = false ->
  keyword cf = false -> aliases e = [] ->
  length (text_of st) < n -> 0 < rounds ->
  exists items id i, yylex rounds n e cf hs (Input st k g) = LTok (LWORD (enc items ++ [EOS]) id) [] i /\
    denotes false items (text_of_segs w) /\ text_of (srcs i) = rest.
Proof.
  intros e cf hs st blanks w rest n rounds k g F T Fb Nw Fw Q E X O1 O2 O3 O4 K1 K2 H R.
  destruct rounds as [|rounds]; [lia|]. cbn [yylex].
  pose proof (fresh_related st k g F) as R0. rewrite T in R0, H.
  set (cf' := fun b : bool => if b then with_alias cf else cf).
  assert (LS : forall b, exists f' l', 
    frun (lex_start n (cf' b)) (Flat (blanks ++ src_of w ++ rest) 0 0) None = Some (inl tt, Flat (src_of w ++ rest) 0 0, None) /\
    frun (lex_word n (fsh e) (cf' b)) (Flat (src_of w ++ rest) 0 0) None =
      Some (inl (Some (LWORD (enc (items_of w) ++ [EOS]) (ident_of (enc (items_of w))))), f', l') /\
    ftext f' = rest).
  { intros b. apply lex_segs; auto; destruct b; assumption. }
  destruct (LS false) as [f1 [l1 [A1 _]]]. cbn [cf'] in A1.
  destruct (sim _ _ _ _ _ _ _ R0 A1) as [i1 [S1 R1]]. cbn [srcs] in S1 |- *. rewrite S1.
  apply related_clear in R1.
  set (b := top_flag i1 && (negb (posix e) || cmdword cf)).
  destruct (LS b) as [f2 [l2 [_ [A2 A3]]]].
  destruct (sim _ _ _ _ _ _ _ R1 A2) as [i2 [S2 R2]]. unfold cf' in S2. rewrite S2.
  assert (KW : keyword (if b then with_alias cf else cf) = false) by (destruct b; assumption).
  exists (items_of w), (ident_of (enc (items_of w))), i2. split; [|split; [now apply items_denote|]].
  - destruct (ident_of (enc (items_of w))) as [|c0 id]; [reflexivity|]. rewrite KW. cbn [andb].
    unfold alias_of. rewrite K2. cbn [find].
    destruct (aliasok (if b then with_alias cf else cf) && negb (alias_active (c0 :: id) (srcs i2))); reflexivity.
  - destruct R2 as [[R2 _] _]. rewrite R2. exact A3.
Qed.
Print Assumptions c24_plain_word.

(** it's a "$5" \*test*: through an alias that ends in the middle of the word. *)
Example c24_ex :
  let w := [Plain "i"; Plain "t"; Back "'"; Plain "s"; Single (L " a \"); Double (L "x ""$5"" y"); Back "*"; Plain "@"]%char in
  let st := [Src (KAlias (L "z") (L " it\'s' a")) [] (L " it\'s' a") false false;
             Src (KLines [L " \'""x \""\$5\"" y""\*@;"; [NL]]) [] [] false false] in
  Forall seg_ok w /\ text_of_segs w = L "it's a \x ""$5"" y*@" /\ fresh st /\ text_of st = L " " ++ src_of w ++ L ";" ++ [NL] /\
  match yylex 1 100 (LEnv false false [] []) noflags [] (Input st 0 0) with
  | LTok (LWORD w' []) [] i => str_eqb w' (enc (items_of w) ++ [EOS]) && str_eqb (text_of (srcs i)) (L ";" ++ [NL])
  | _ => false
  end = true.
Proof.
  cbv zeta. split; [|split; [reflexivity|split; [|split; [reflexivity|vm_compute; reflexivity]]]].
  - repeat constructor; cbn; intuition discriminate.
  - repeat constructor; cbn; try discriminate. intros H. repeat (destruct H as [H|H]; [discriminate|]). contradiction.
Qed.
