(** Proofs about completion. *)
From Verif Require Import Base Num_model Lex_spec Complete_model Complete_spec Emacs_model.
Local Open Scope nat_scope.

(** ** The word *)
Definition stops : cstr := [SP; TAB; NL] ++ L "|&;<>()'""`=:".
Lemma stop_char c : In c stops -> word_char c = false.
Proof.
  intros H. unfold word_char. destruct (mem c _) eqn:E; [now rewrite Bool.orb_true_r|]. exfalso. apply mem_false in E. apply E. exact H.
Qed.
Lemma back_char : word_char "\" = true.
Proof. reflexivity. Qed.
Lemma special_false c : Lex_spec.special c = false -> ~ In c ([SP; TAB; NL; NUL] ++ L "|&;<>()\'""$`*?[~{}#").
Proof. apply mem_false. Qed.
Lemma plain_char c : Lex_spec.special c = false -> c <> "="%char -> c <> ":"%char -> word_char c = true /\ ceq c "\" = false.
Proof.
  intros H N1 N2. apply special_false in H. split.
  - unfold word_char. apply Bool.negb_true_iff, Bool.orb_false_iff. split.
    + apply ceq_false. intros ->. apply H. cbn. auto.
    + apply mem_false. intros I. cbn in I, H. intuition.
  - apply ceq_false. intros ->. apply H. cbn. tauto.
Qed.
Lemma forw_le l : forw l <= length l.
Proof.
  assert (G : forall n l, length l <= n -> forw l <= length l).
  { induction n as [|n IH]; intros [|c r] H; cbn [forw length] in *; try lia. destruct (word_char c); [|lia].
    destruct (ceq c "\").
    - destruct r as [|d r]; cbn [length] in *; [lia|]. specialize (IH r). lia.
    - specialize (IH r). lia. }
  apply (G (length l)). lia.
Qed.
Lemma forw_src w q : Forall part_ok w -> ended q -> forw (src_of w ++ q) = length (src_of w).
Proof.
  induction 1 as [|s w P F IH]; intros E; cbn [src_of flat_map app length].
  - destruct q as [|c q]; [reflexivity|]. cbn [forw]. cbn [ended] in E. now rewrite stop_char.
  - destruct s as [t|t|c|c]; try contradiction; cbn [seg_src app length].
    + cbn [forw]. rewrite back_char, ceq_refl. f_equal. f_equal. now apply IH.
    + destruct P as [P1 [P2 P3]]. destruct (plain_char c P1 P2 P3) as [X Y]. cbn [forw]. rewrite X, Y. f_equal. now apply IH.
Qed.
(** Every character of it is of a word or has a backslash before. *)
Lemma src_chars w : Forall part_ok w -> forall k c, nth_error (src_of w) k = Some c ->
  word_char c = true \/ exists j, k = S j /\ nth_error (src_of w) j = Some "\"%char.
Proof.
  induction 1 as [|s w P F IH]; intros k c H; cbn [src_of flat_map] in *; [destruct k; discriminate|].
  destruct s as [t|t|d|d]; try contradiction; cbn [seg_src app] in *.
  - destruct k as [|[|k]]; cbn [nth_error] in H.
    + injection H as <-. now left.
    + right. exists O. split; reflexivity.
    + destruct (IH k c H) as [X|[j [-> X]]]; [now left|right]. exists (S (S j)). split; [reflexivity|exact X].
  - destruct k as [|k]; cbn [nth_error] in H.
    + injection H as <-. destruct P as [P1 [P2 P3]]. left. now apply plain_char.
    + destruct (IH k c H) as [X|[j [-> X]]]; [now left|right]. exists (S j). split; [reflexivity|exact X].
Qed.
Lemma nth_at {A} (p r : list A) k : nth_error (p ++ r) (length p + k) = nth_error r k.
Proof. rewrite nth_error_app2 by lia. f_equal. lia. Qed.
Lemma back_stop p r : apart p -> back (p ++ r) (length p) = Some (length p).
Proof.
  intros [|c H|p' d c N H]; [reflexivity| |].
  - cbn [length app back nth_error]. now rewrite stop_char.
  - rewrite app_length. cbn [length]. rewrite Nat.add_comm. change (2 + length p') with (S (S (length p'))). cbn [back].
    rewrite <- app_assoc. replace (S (length p')) with (length p' + 1) at 1 by lia. rewrite nth_at. cbn [nth_error app].
    rewrite stop_char by exact H. replace (length p') with (length p' + 0) at 1 by lia. rewrite nth_at. cbn [nth_error].
    now rewrite (proj2 (ceq_false _ _) N).
Qed.
Lemma back_src p w q : apart p -> Forall part_ok w -> forall k, k <= length (src_of w) ->
  back (p ++ src_of w ++ q) (length p + k) = Some (length p).
Proof.
  intros A F. induction k as [|k IH]; intros H.
  - rewrite Nat.add_0_r. now apply back_stop.
  - replace (length p + S k) with (S (length p + k)) by lia. cbn [back]. rewrite nth_at, nth_error_app1 by lia.
    destruct (nth_error (src_of w) k) as [c|] eqn:E; [|apply nth_error_None in E; lia].
    destruct (src_chars w F k c E) as [X|[j [-> X]]].
    + rewrite X. apply IH. lia.
    + destruct (word_char c); [apply IH; lia|].
      replace (length p + S j) with (S (length p + j)) in * by lia. rewrite nth_at, nth_error_app1, X by lia.
      rewrite ceq_refl. apply IH. lia.
Qed.
Lemma back_safe buf : forall pos, pos <= length buf -> exists s, back buf pos = Some s /\ s <= pos.
Proof.
  induction pos as [|k IH]; intros H; [now exists 0|]. cbn [back].
  destruct (nth_error buf k) as [c|] eqn:E; [|apply nth_error_None in E; lia].
  destruct (IH ltac:(lia)) as [s [B Hs]].
  destruct (word_char c); [exists s; split; [exact B|lia]|].
  destruct k as [|j]; [exists 1; split; [reflexivity|lia]|].
  destruct (nth_error buf j) as [d|] eqn:D; [|apply nth_error_None in D; lia].
  destruct (ceq d "\"); [exists s; split; [exact B|lia]|]. exists (S (S j)). split; [reflexivity|lia].
Qed.
Lemma drop_space_spec l : exists b, l = b ++ drop_space l /\ Forall (fun c => isspace c = true) b /\
  match drop_space l with c :: _ => isspace c = false | [] => True end.
Proof.
  induction l as [|c l [b [E [F N]]]]; [exists []; repeat split; constructor|]. cbn [drop_space].
  destruct (isspace c) eqn:S.
  - exists (c :: b). split; [cbn; now rewrite <- E|]. split; [now constructor|exact N].
  - exists []. repeat split; [constructor|exact S].
Qed.
Lemma drop_spaces b l : Forall (fun c => isspace c = true) b -> drop_space (b ++ l) = drop_space l.
Proof. induction 1 as [|c b S F IH]; [reflexivity|]. cbn [app drop_space]. now rewrite S. Qed.
Lemma op_char c : starts_command c = true <-> In c (L ";|&()`") \/ c = NUL.
Proof. unfold starts_command. rewrite Bool.orb_true_iff, mem_In, ceq_true. tauto. Qed.
Lemma op_not_space c : starts_command c = true -> isspace c = false.
Proof. intros H. apply op_char in H. destruct H as [H| ->]; [|reflexivity]. cbn in H. intuition (subst; reflexivity). Qed.
Lemma at_command_rev p : at_command p <-> match drop_space (rev p) with [] => True | c :: _ => starts_command c = true end.
Proof.
  split.
  - intros [a [b [-> [F [->|[a' [c [-> O]]]]]]]]; rewrite rev_app_distr, drop_spaces by now apply Forall_rev.
    + exact Logic.I.
    + rewrite rev_app_distr. cbn [rev app drop_space]. apply op_char in O. now rewrite (op_not_space c O).
  - intros H. destruct (drop_space_spec (rev p)) as [b [E [F N]]]. exists (rev (drop_space (rev p))), (rev b).
    split; [rewrite <- rev_app_distr, <- E; now rewrite rev_involutive|]. split; [now apply Forall_rev|].
    destruct (drop_space (rev p)) as [|c r]; [now left|right]. exists (rev r), c. split; [reflexivity|]. now apply op_char.
Qed.
Lemma locate_src p w q k : apart p -> Forall part_ok w -> ended q -> k <= length (src_of w) ->
  locate (p ++ src_of w ++ q) (length p + k) = Some (length p, length (src_of w), is_command (p ++ src_of w ++ q) (length p) (length (src_of w))).
Proof.
  intros A F E H. unfold locate. destruct (Nat.ltb_spec (length (p ++ src_of w ++ q)) (length p + k)) as [X|_]; [rewrite !app_length in X; lia|].
  rewrite back_src by auto. rewrite skipn_app, skipn_all, Nat.sub_diag. cbn [app skipn]. now rewrite forw_src.
Qed.
Lemma is_command_src p t q : is_command (p ++ t ++ q) (length p) (length t) = true <-> at_command p /\ ~ In "/"%char t.
Proof.
  unfold is_command. rewrite firstn_app, firstn_all, Nat.sub_diag, firstn_O, app_nil_r, skipn_app, skipn_all, Nat.sub_diag.
  cbn [app skipn]. rewrite firstn_app, firstn_all, Nat.sub_diag, firstn_O, app_nil_r. rewrite Bool.andb_true_iff, Bool.negb_true_iff, mem_false, at_command_rev.
  destruct (drop_space (rev p)) as [|c r]; tauto.
Qed.

(** ** The longest common prefix *)
Lemma common_le : forall a b, common a b <= length a.
Proof. induction a as [|x a IH]; intros [|y b]; cbn [common length]; try lia. destruct (ceq x y); [|lia]. specialize (IH b). lia. Qed.
Lemma common_prefix_of : forall a b n, n <= common a b -> firstn n a = firstn n b /\ n <= length b.
Proof.
  induction a as [|x a IH]; intros [|y b] n H; cbn [common] in H; try (replace n with 0 by lia; split; [reflexivity|cbn; lia]).
  destruct (ceq x y) eqn:E; [|replace n with 0 by lia; split; [reflexivity|lia]]. apply ceq_true in E. subst y.
  destruct n as [|n]; [split; [reflexivity|lia]|]. destruct (IH b n ltac:(lia)) as [A B]. cbn [firstn length]. split; [now rewrite A|lia].
Qed.
Lemma common_max : forall p r1 r2, length p <= common (p ++ r1) (p ++ r2).
Proof. induction p as [|x p IH]; intros; cbn [app common length]; [lia|]. rewrite ceq_refl. specialize (IH r1 r2). lia. Qed.
Lemma fold_min w : forall l n, let m := fold_left (fun n v => Nat.min n (common w v)) l n in
  m <= n /\ (forall v, In v l -> m <= common w v) /\ (m = n \/ exists v, In v l /\ m = common w v).
Proof.
  induction l as [|v l IH]; intros n; cbn [fold_left].
  - split; [lia|]. split; [intros v []|now left].
  - destruct (IH (Nat.min n (common w v))) as [A [B C]]. cbv zeta in *. split; [lia|]. split.
    + intros u [<-|U]; [lia|now apply B].
    + destruct C as [C|[u [U C]]]; [|right; exists u; split; [now right|exact C]].
      destruct (Nat.min_dec n (common w v)) as [X|X]; rewrite X in C at 2; [now left|right]. exists v. split; [now left|exact C].
Qed.
Lemma longest_ok l : l <> [] -> longest_common (firstn (longest l) (nth 0 l [])) l /\ longest l <= length (nth 0 l []).
Proof.
  destruct l as [|w l]; [contradiction|]. intros _. cbn [longest nth]. destruct (fold_min w l (length w)) as [A [B C]]. cbv zeta in *.
  set (m := fold_left _ _ _) in *. split; [|exact A]. split.
  - intros v [<-|V].
    + exists (skipn m w). now rewrite firstn_skipn.
    + destruct (common_prefix_of w v m (B v V)) as [E _]. exists (skipn m v). rewrite E. now rewrite firstn_skipn.
  - intros q Q. rewrite firstn_length_le by exact A. destruct (Q w ltac:(now left)) as [r Er]. destruct C as [->|[v [V ->]]].
    + rewrite Er, app_length. lia.
    + destruct (Q v ltac:(now right)) as [r' Er']. rewrite Er, Er'. apply common_max.
Qed.

(** ** Writing it *)
Definition esc (e : env) (s : cstr) : list seg := map (fun c => if Emacs_model.special e c then Back c else Plain c) s.
Lemma esc_text e s : text_of_segs (esc e s) = s.
Proof.
  induction s as [|c s IH]; [reflexivity|]. cbn [esc map text_of_segs flat_map] in *. fold (esc e s) in *. unfold text_of_segs in IH. rewrite IH.
  now destruct (Emacs_model.special e c).
Qed.
Lemma esc_len e s : length (src_of (esc e s)) <= 2 * length s.
Proof.
  induction s as [|c s IH]; [cbn; lia|]. cbn [esc map src_of flat_map] in *. fold (esc e s) in *. unfold src_of in IH. rewrite app_length.
  destruct (Emacs_model.special e c); cbn [seg_src length] in *; lia.
Qed.
Lemma esc_ok e s : writable (ifs e) s -> Forall part_ok (esc e s).
Proof.
  induction s as [|c s IH]; intros W; [constructor|]. cbn [esc map]. constructor; [|apply IH; intros d D; apply W; now right].
  destruct (W c ltac:(now left)) as [N0 [N1 [N2 N3]]]. destruct (Emacs_model.special e c) eqn:E; cbn [part_ok]; [now split|].
  unfold Emacs_model.special in E. apply Bool.orb_false_iff in E. destruct E as [E1 E2].
  change (mem c (L "!""#$&'()*:;<=>?[\]`{|}") = false) in E1. change (mem c (ifs e) = false) in E2.
  apply mem_false in E1. apply mem_false in E2. split; [|split; intros ->; apply E1; cbn; tauto].
  apply mem_false. intros I. apply E1. cbn in I |- *. repeat (destruct I as [I|I]; [subst c; try tauto; try (exfalso; now apply N1); try (exfalso; now apply N0); try (exfalso; apply E2, N3; now auto); now exfalso; apply N2|]). contradiction.
Qed.
Lemma do_ins_room e t s A B : txt s = A ++ B -> cur s = length A -> length (A ++ B) + length t < cap e ->
  do_ins e t s = (true, with_txt (A ++ t ++ B) (length A + length t) s).
Proof.
  intros T C H. unfold do_ins. rewrite T, C. destruct (Nat.leb_spec (cap e) (length (A ++ B) + length t)) as [X|_]; [lia|].
  rewrite firstn_app, firstn_all, Nat.sub_diag, firstn_O, app_nil_r, skipn_app, skipn_all, Nat.sub_diag. reflexivity.
Qed.
Lemma escape_ok e : forall s t st A B, txt st = A ++ B -> cur st = length A -> length (A ++ B) + length t + 2 * length s < cap e ->
  escape e t s st = (true, with_txt (A ++ t ++ src_of (esc e s) ++ B) (length A + length t + length (src_of (esc e s))) st).
Proof.
  induction s as [|c s IH]; intros t st A B T C H; cbn [escape].
  - cbn [esc map src_of flat_map app length] in *. rewrite Nat.add_0_r. destruct t as [|d t].
    + cbn [app length]. rewrite Nat.add_0_r, <- T, <- C. now destruct st.
    + apply do_ins_room; auto. lia.
  - cbn [length] in H. cbn [esc map src_of flat_map]. fold (esc e s). fold (src_of (esc e s)). destruct (Emacs_model.special e c) eqn:S.
    + rewrite (do_ins_room e t st A B) by (auto; lia).
      rewrite (do_ins_room e (L "\") _ (A ++ t) B) by (cbn [txt cur with_txt]; rewrite ?app_length in *; cbn [length L]; rewrite ?app_assoc; auto; rewrite ?app_length in *; cbn in *; lia).
      cbn [snd].
      rewrite (do_ins_room e [c] _ (A ++ t ++ L "\") B) by (cbn [txt cur with_txt]; rewrite ?app_length in *; cbn [length L]; rewrite ?app_assoc; auto; rewrite ?app_length in *; cbn in *; lia).
      cbn [snd].
      rewrite (IH [] _ (A ++ t ++ ["\"%char; c]) B); cbn [txt cur with_txt].
      * cbn [seg_src]. f_equal. unfold with_txt. cbn. f_equal.
        -- now rewrite <- !app_assoc.
        -- rewrite !app_length. cbn [length]. lia.
      * rewrite <- !app_assoc. reflexivity.
      * rewrite !app_length. cbn [length L]. cbn. lia.
      * rewrite !app_length in *. cbn [length] in *. lia.
    + rewrite (IH (t ++ [c]) st A B) by (rewrite ?app_length in *; cbn [length] in *; auto; lia).
      cbn [seg_src app]. f_equal. f_equal; [now rewrite <- !app_assoc|]. rewrite !app_length. cbn [length]. lia.
Qed.
Lemma delete_ok n s : cur s + n <= length (txt s) -> exists s', delete n false s = Ok s' /\ txt s' = firstn (cur s) (txt s) ++ skipn (cur s + n) (txt s) /\ cur s' = cur s.
Proof.
  intros H. unfold delete. destruct (Nat.eqb_spec n 0) as [->|N].
  - exists s. rewrite Nat.add_0_r, firstn_skipn. auto.
  - destruct (Nat.ltb_spec (length (txt s)) (cur s + n)) as [X|_]; [lia|]. eexists. split; [reflexivity|].
    destruct (mark s); [destruct (cur s <? n0)|]; now cbn.
Qed.
Lemma complete_ok e flags s a b l : let n := longest l in let name := firstn n (nth 0 l []) in
  glob e flags (txt s) (cur s) = Some (a, b, l) -> l <> [] -> a <= b -> b <= length (txt s) ->
  (length l = 1 -> name <> []) -> (length l = 1 \/ b - a < length name) -> length (txt s) + 2 * length name + 1 < cap e ->
  let t := if (length l =? 1) && negb (ceq (last name NUL) "/") then L " " else [] in
  exists s', do_complete e flags false s = Ok s' /\ txt s' = firstn a (txt s) ++ src_of (esc e name) ++ t ++ skipn b (txt s) /\
    cur s' = a + length (src_of (esc e name)) + length t.
Proof.
  intros n name G Nl Hab Hb N1 Hn R t. unfold do_complete. rewrite G. destruct (longest_ok l Nl) as [_ Ln]. fold n in Ln.
  assert (Lname : length name = n) by (unfold name; now rewrite firstn_length_le).
  fold n. fold name. assert (C : (length l =? 1) || (b - a <? n) = true).
  { apply Bool.orb_true_iff. destruct Hn as [X|X]; [left; now apply Nat.eqb_eq|right; apply Nat.ltb_lt; lia]. }
  rewrite C. unfold goto. destruct (Nat.leb_spec a (length (txt s))) as [_|X]; [|lia]. cbn [then_].
  destruct (delete_ok (b - a) (with_txt (txt s) a s)) as [s1 [D [T1 C1]]]; [cbn; lia|].
  rewrite D. cbn [then_]. cbn [txt cur with_txt] in T1, C1. replace (a + (b - a)) with b in T1 by lia.
  assert (La : length (firstn a (txt s)) = a) by (apply firstn_length_le; lia).
  assert (Lt : length (firstn a (txt s) ++ skipn b (txt s)) <= length (txt s)) by (rewrite app_length, La, skipn_length; lia).
  rewrite (escape_ok e name [] s1 (firstn a (txt s)) (skipn b (txt s))) by (cbn [length]; rewrite ?La; auto; lia). cbn [snd].
  cbn [app length]. rewrite Nat.add_0_r, La.
  subst t. destruct (length l =? 1) eqn:E1; cbn [andb].
  - destruct (Nat.eqb_spec n 0) as [Z|Z]; [exfalso; apply N1; [now apply Nat.eqb_eq|apply length_zero_iff_nil; lia]|].
    assert (Lst : nth (n - 1) (nth 0 l []) NUL = last name NUL).
    { rewrite <- (firstn_skipn n (nth 0 l [])) at 1. fold name. rewrite app_nth1 by lia.
      clear - Lname Z. destruct (exists_last (l := name)) as [u [c E]]; [intros X; rewrite X in Lname; cbn in Lname; lia|].
      rewrite E in *. rewrite last_last, app_length in *. cbn [length] in Lname. rewrite app_nth2 by lia. now replace (n - 1 - length u) with 0 by lia. }
    rewrite Lst. destruct (ceq (last name NUL) "/") eqn:Sl; cbn [negb].
    + eexists. split; [reflexivity|]. cbn [txt cur with_txt app length]. split; [reflexivity|]. lia.
    + eexists. split; [reflexivity|]. unfold ins.
      rewrite (do_ins_room e (L " ") _ (firstn a (txt s) ++ src_of (esc e name)) (skipn b (txt s))); cbn [snd txt cur with_txt].
      * split; [now rewrite <- !app_assoc|]. rewrite app_length, La. reflexivity.
      * now rewrite <- app_assoc.
      * rewrite app_length, La. reflexivity.
      * pose proof (esc_len e name). rewrite !app_length in *. cbn [length L]. cbn. lia.
  - eexists. split; [reflexivity|]. cbn [txt cur with_txt app length]. split; [reflexivity|]. lia.
Qed.

(** ** Arrays *)
Lemma space_not_op c : isspace c = true -> starts_command c = false.
Proof. intros H. destruct (starts_command c) eqn:E; [|reflexivity]. apply op_not_space in E. congruence. Qed.
Lemma walk_back_app m a : Forall (fun c => starts_command c = false) m -> walk_back (m ++ a) = m ++ walk_back a.
Proof. induction 1 as [|c m H F IH]; [reflexivity|]. cbn [app walk_back]. now rewrite H, IH. Qed.
Lemma leading_app n r : Forall (fun c => isspace c = false) n -> match r with c :: _ => isspace c = true | [] => True end -> leading (n ++ r) = n.
Proof.
  intros F H. induction F as [|c n X F IH]; cbn [app leading].
  - destruct r as [|c r]; [reflexivity|]. cbn. now rewrite H.
  - now rewrite X, IH.
Qed.
Lemma ends_blank b r : blanks b -> ends (b ++ r) = ends r.
Proof.
  induction 1 as [|c b H F IH]; [reflexivity|]. cbn [app]. destruct (b ++ r) as [|d s] eqn:E.
  - cbn [ends] in *. rewrite <- IH. reflexivity.
  - cbn [ends]. rewrite H. cbn [negb andb]. exact IH.
Qed.
Lemma ends_arg a y r : a <> [] -> Forall (fun c => isspace c = false) a -> isspace y = true -> ends (a ++ y :: r) = S (ends (y :: r)).
Proof.
  intros N F Y. induction F as [|c a H F IH]; [contradiction|]. destruct a as [|d a].
  - cbn [app]. change (ends (c :: y :: r)) with ((if negb (isspace c) && isspace y then 1 else 0) + ends (y :: r)). now rewrite H, Y.
  - cbn [app] in *. change (ends (c :: d :: a ++ y :: r)) with ((if negb (isspace c) && isspace d then 1 else 0) + ends (d :: a ++ y :: r)).
    inversion F as [|x z D F']; subst. rewrite H, D. cbn [negb andb]. apply IH. discriminate.
Qed.
Lemma ends_args : forall args, Forall (fun a => argument (fst a) /\ blanks (snd a) /\ snd a <> []) args ->
  ends (flat_map (fun a => fst a ++ snd a) args) = length args.
Proof.
  induction 1 as [|[a b] args [[A1 A2] [B N]] F IH]; [reflexivity|]. cbn [fst snd flat_map length] in *. destruct b as [|y b]; [contradiction|].
  inversion B as [|x z Y B']; subst. rewrite <- app_assoc. cbn [app]. rewrite ends_arg; auto.
  - change (y :: b ++ flat_map (fun a => fst a ++ snd a) args) with ((y :: b) ++ flat_map (fun a => fst a ++ snd a) args). rewrite ends_blank by exact B. now rewrite IH.
  - eapply Forall_impl; [|exact A2]. cbn. tauto.
Qed.
Lemma name_ok c : isalnum c = true \/ c = "_"%char -> isspace c = false /\ starts_command c = false /\ name_char c = true.
Proof.
  intros H. unfold name_char. assert (X : isalnum c || ceq c "_" = true) by (destruct H as [-> | ->]; reflexivity). rewrite X.
  destruct c as [[] [] [] [] [] [] [] []]; vm_compute in X; try discriminate X; repeat split; reflexivity.
Qed.
Lemma call_parts p name n : call p name n -> p <> [] /\ exists r, drop_space (rev (walk_back (rev p))) = name ++ r /\
  match r with c :: _ => isspace c = true | [] => True end /\ ends r = n /\ Forall (fun c => isspace c = false) name /\ forallb name_char name = true.
Proof.
  intros [[pre [b0 [b1 [args [-> [-> [Hp [B0 [B1 [N1 FA]]]]]]]]]] [Nn Fn]]. split.
  { destruct pre; [|discriminate]. destruct b0; [|discriminate]. destruct name; [contradiction|discriminate]. }
  assert (Fs : Forall (fun c => isspace c = false) name) by (eapply Forall_impl; [|exact Fn]; intros c H; now apply name_ok).
  exists (b1 ++ flat_map (fun a => fst a ++ snd a) args). split; [|split; [|split; [|split]]]; auto.
  - rewrite rev_app_distr, walk_back_app.
    + assert (W : walk_back (rev pre) = []).
      { destruct Hp as [->|[u [c [-> O]]]]; [reflexivity|]. rewrite rev_app_distr. cbn [rev app walk_back]. apply op_char in O. now rewrite O. }
      rewrite W, app_nil_r, rev_involutive, drop_spaces by exact B0. destruct name as [|c nm]; [contradiction|]. cbn [app drop_space]. inversion Fs as [|x y X Y]; subst. now rewrite X.
    + apply Forall_rev. repeat (apply Forall_app; split).
      * eapply Forall_impl; [|exact B0]. intros c. apply space_not_op.
      * eapply Forall_impl; [|exact Fn]. intros c H. now apply name_ok.
      * eapply Forall_impl; [|exact B1]. intros c. apply space_not_op.
      * clear - FA. induction FA as [|[a b] args [[A1 A2] [B N]] F IH]; cbn [flat_map fst snd] in *; [constructor|].
        repeat (apply Forall_app; split); auto.
        -- eapply Forall_impl; [|exact A2]. intros c [_ [X Y]]. destruct (starts_command c) eqn:E; [|reflexivity]. apply op_char in E. tauto.
        -- eapply Forall_impl; [|exact B]. intros c. apply space_not_op.
  - destruct b1 as [|c b1]; [contradiction|]. now inversion B1.
  - rewrite ends_blank by exact B1. now apply ends_args.
  - apply forallb_forall. intros c I. rewrite Forall_forall in Fn. now apply name_ok, Fn.
Qed.
Lemma prefix_ok : forall p s, starts_with p s = true <-> exists r, s = p ++ r.
Proof.
  induction p as [|c p IH]; intros s; cbn [starts_with app]; [split; [now exists s|auto]|]. destruct s as [|d s].
  - split; [discriminate|intros [r X]; discriminate].
  - rewrite Bool.andb_true_iff, ceq_true, IH. split; [intros [-> [r ->]]; now exists r|]. intros [r X]. injection X as -> ->. split; [reflexivity|now exists r].
Qed.
Lemma try_array_call arrays p name n want q : call p name n ->
  try_array arrays (p ++ want ++ q) (length p) (length want) =
  match (match arrays name (Some (S n)) with Some l => Some l | None => arrays name None end) with Some l => filter (starts_with want) l | None => [] end.
Proof.
  intros C. destruct (call_parts p name n C) as [Np [r [D [R [E [Fs A]]]]]]. unfold try_array.
  destruct (Nat.eqb_spec (length p) 0) as [Z|_]; [destruct p; [contradiction|discriminate]|].
  rewrite firstn_app, firstn_all, Nat.sub_diag, firstn_O, app_nil_r, D, leading_app by auto. rewrite A.
  rewrite skipn_app, skipn_all, Nat.sub_diag. cbn [app skipn]. rewrite E. cbn [Nat.add].
  rewrite skipn_app, skipn_all, Nat.sub_diag. cbn [app skipn]. rewrite firstn_app, firstn_all, Nat.sub_diag, firstn_O, app_nil_r.
  destruct (arrays name (Some (S n))); [reflexivity|]. destruct (arrays name None); reflexivity.
Qed.

(** ** The last part of a path *)
Lemma strip_rev : forall sl r, Forall (eq "/"%char) sl -> r <> [] -> strip_slashes (sl ++ r) = strip_slashes r.
Proof.
  induction 1 as [|c sl H F IH]; intros N; [reflexivity|]. subst c. cbn [app]. specialize (IH N).
  destruct (sl ++ r) as [|d s] eqn:E; [destruct sl; [contradiction|discriminate]|].
  change (strip_slashes ("/"%char :: d :: s)) with (strip_slashes (d :: s)). exact IH.
Qed.
Lemma strip_head c r : c <> "/"%char -> strip_slashes (c :: r) = c :: r.
Proof. intros H. cbn [strip_slashes]. destruct r; [reflexivity|]. apply ceq_false in H. now rewrite H. Qed.
Lemma last_part_app : forall n r, ~ In "/"%char n -> r <> [] -> last_part (n ++ r) = last_part r.
Proof.
  induction n as [|c n IH]; intros r H N; [reflexivity|]. cbn [app]. specialize (IH r (fun X => H (or_intror X)) N).
  destruct (n ++ r) as [|d s] eqn:E; [destruct n; [contradiction|discriminate]|].
  change (last_part (c :: d :: s)) with (if ceq c "/" then c :: d :: s else last_part (d :: s)).
  destruct (ceq c "/") eqn:X; [apply ceq_true in X; subst; exfalso; apply H; now left|]. exact IH.
Qed.
Lemma basename_name d t : last_name d t -> basename (d ++ t) = length d.
Proof.
  intros [n sl Nn H F|d' n sl Nn H F]; unfold basename.
  - cbn [app length]. destruct (exists_last Nn) as [u [c E]]. destruct n as [|c0 n']; [contradiction|].
    cbn [app]. change (c0 :: n' ++ sl) with ((c0 :: n') ++ sl). rewrite rev_app_distr, strip_rev.
    + rewrite E, rev_app_distr. cbn [rev app]. rewrite strip_head by (intros ->; apply H; rewrite E; apply in_or_app; right; now left).
      change (c :: rev u) with ([c] ++ rev u). replace ([c] ++ rev u) with (rev (c0 :: n')) by (rewrite E, rev_app_distr; reflexivity).
      cbn [rev]. rewrite last_part_app; [|intros X; apply H; right; now apply in_rev|discriminate]. cbn [last_part length].
      destruct (ceq c0 "/") eqn:X; [apply ceq_true in X; subst; exfalso; apply H; now left|]. reflexivity.
    + now apply Forall_rev.
    + cbn [rev]. destruct (rev n'); discriminate.
  - destruct ((d' ++ ["/"%char]) ++ n ++ sl) as [|x y] eqn:Z; [destruct d'; discriminate|]. rewrite <- Z.
    rewrite !rev_app_distr. cbn [rev app]. rewrite <- app_assoc, strip_rev.
    + assert (LL : last_part (strip_slashes (rev n ++ "/"%char :: rev d')) = "/"%char :: rev d').
      { destruct (exists_last Nn) as [u [c E]]. rewrite E, rev_app_distr. cbn [rev app].
        rewrite strip_head by (intros ->; apply H; rewrite E; apply in_or_app; right; now left).
        change (c :: rev u ++ "/"%char :: rev d') with ((c :: rev u) ++ "/"%char :: rev d').
        replace (c :: rev u) with (rev n) by (rewrite E, rev_app_distr; reflexivity).
        rewrite last_part_app; [|intros X; apply H; now apply in_rev|discriminate]. destruct (rev d'); reflexivity. }
      rewrite LL, ceq_refl.
      cbn [length andb]. rewrite rev_length, !app_length. cbn [length]. destruct n as [|n0 n1]; [contradiction|]. cbn [length].
      destruct (Nat.ltb_spec (S (length d')) (length d' + 1 + (S (length n1) + length sl))); lia.
    + now apply Forall_rev.
    + intros X. apply app_eq_nil in X. destruct X; discriminate.
Qed.
Lemma basename_slashes : forall sl, Forall (eq "/"%char) sl -> 2 <= length sl -> basename sl = 1.
Proof.
  intros sl F H. unfold basename. destruct sl as [|c sl]; [cbn in H; lia|]. inversion F as [|x y X F']; subst.
  cbn [rev]. rewrite strip_rev; [|now apply Forall_rev|discriminate]. cbn [strip_slashes last_part]. rewrite ceq_refl. cbn [length andb] in *.
  destruct (Nat.ltb_spec 1 (S (length sl))); lia.
Qed.

(** ** Patterns *)
Lemma scan_step c r b : c <> "\"%char -> ~ In c (L "*[?$") -> hd_error r <> Some "("%char -> scan (c :: r) b = scan r (b || ceq c "/").
Proof.
  intros N1 N2 N3. apply mem_false in N2. apply ceq_false in N1. cbn [scan]. destruct r as [|d r].
  - now rewrite N2.
  - rewrite N1, N2. destruct (ceq d "(") eqn:E; [apply ceq_true in E; subst; exfalso; now apply N3|]. reflexivity.
Qed.
Definition plain_slash (s : seg) : bool := match s with Plain c => ceq c "/" | _ => false end.
Lemma hd_src w r : Forall part_ok w -> hd_error r <> Some "("%char -> hd_error (src_of w ++ r) <> Some "("%char.
Proof.
  intros F H. destruct F as [|s w P F]; [exact H|]. destruct s as [t|t|c|c]; try contradiction; cbn; [discriminate|].
  destruct P as [P _]. intros X. injection X as ->. discriminate P.
Qed.
Lemma scan_src w : Forall part_ok w -> forall r b, hd_error r <> Some "("%char -> scan (src_of w ++ r) b = scan r (b || existsb plain_slash w).
Proof.
  induction 1 as [|s w P F IH]; intros r b H; [now rewrite Bool.orb_false_r|].
  destruct s as [t|t|c|c]; try contradiction; cbn [src_of flat_map seg_src app existsb plain_slash]; fold (src_of w).
  - cbn [scan]. rewrite ceq_refl. now apply IH.
  - destruct P as [P _]. apply special_false in P. rewrite scan_step.
    + rewrite IH by exact H. now rewrite Bool.orb_assoc.
    + intros ->. apply P. cbn. tauto.
    + intros X. apply P. cbn in X |- *. tauto.
    + now apply hd_src.
Qed.
