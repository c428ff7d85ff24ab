(** C63-C65: the emacs line editor. *)
From Verif Require Import Base Num_model Emacs_model Emacs_spec Emacs_proof Emacs_kill Emacs_pop Emacs_keys.
From Coq Require Import ZArith Lia.

(** ** C63 *)
(** Whatever is typed, with any arguments, macros, history, completions and kills of earlier lines: as long as no state from which a key
    can leave the buffer is reached, nothing outside of it is touched, the cursor stays in the line, the line (with its NUL) in the
    buffer, and a command goes on only as long as there are keys. *)
Theorem c63_in_bounds_partial e f g ks sp tp next u m i : sane e -> ring_ok ks sp tp ->
  (forall g' s', g' < g -> edit e f g' (start e ks sp tp next u m i) = Ok (TGo s') -> ~ trap s') ->
  match edit e f g (start e ks sp tp next u m i) with
  | UB => False
  | Err => exists g' s', g' < g /\ edit e f g' (start e ks sp tp next u m i) = Ok (TGo s') /\ f <= length (pending s')
  | Ok (TLine t s) => length t <= cap e /\ no_nul t /\ ring_ok (kills s) (ksp s) (ktp s)
  | Ok (TGo s) | Ok (TIntr s) | Ok (TEof s) => within e s /\ ring_ok (kills s) (ksp s) (ktp s)
  end.
Proof.
  intros SN R T. pose proof (edit_safe e SN f g _ (start_inv e SN ks sp tp next u m i R) T) as H.
  destruct (edit e f g _) as [[s|t s|s|s]| |]; cbn in H; auto; (split; [ exact (proj1 H) | exact (proj1 (proj2 H)) ]).
Qed.
Print Assumptions c63_in_bounds_partial.
(** The same for one key, from any such state: then there are no other hypotheses about what came before. *)
Theorem c63_key_partial e f s : sane e -> within e s -> ring_ok (kills s) (ksp s) (ktp s) -> (histp s <= histptr e + 1)%Z -> ~ trap s ->
  match key e f [] 0 s with
  | UB => False
  | Err => f <= length (pending s)
  | Ok (TLine t s) => length t <= cap e /\ no_nul t /\ ring_ok (kills s) (ksp s) (ktp s)
  | Ok (TGo s) | Ok (TIntr s) | Ok (TEof s) => within e s /\ ring_ok (kills s) (ksp s) (ktp s) /\ (histp s <= histptr e + 1)%Z
  end.
Proof.
  intros SN W R HP T. pose proof (key_safe e SN f s (conj W (conj R HP)) T) as H. destruct (key e f [] 0 s) as [[]| |]; cbn in H; auto; exact H.
Qed.
Print Assumptions c63_key_partial.

Definition none := fun (_ : nat) (_ : cstr) (_ : nat) => @None (nat * nat * list cstr).
Definition env1 h : env := Env 4096 4096 h 1 init_keys false (L " ") none.
Definition ring0 : list (option cstr) := repeat None 20.
Definition typed h (t : cstr) : res turn := edit (env1 h) 5000 5000 (start (env1 h) ring0 0 0 (-1) None None t).
Definition esc : char := "027"%char.
Lemma env1_sane : forall h, forallb (fun t => forallb (fun c => negb (is_nul c)) t && negb (length t =? 0) && (length t <? 4096)) h = true -> h <> [] -> sane (env1 h).
Proof.
  intros h H NE. constructor.
  - intros t IT. change (In t h) in IT. rewrite forallb_forall in H. specialize (H t IT). apply andb_true_iff in H. destruct H as (H & H3). apply andb_true_iff in H. destruct H as (H1 & H2). sp.
    + rewrite forallb_forall in H1. apply Forall_forall. intros c IC E. apply H1 in IC. subst. discriminate.
    + intros ->. discriminate.
    + apply Nat.ltb_lt. exact H3.
  - intros f t c a b l G. discriminate.
  - intros k IK. assert (F : forallb (fun k => length (seq_of k) + 4 <=? 4096) init_keys = true) by (vm_compute; reflexivity). rewrite forallb_forall in F. apply Nat.leb_le. apply F. exact IK.
  - apply Nat.leb_le. vm_compute. reflexivity.
  - apply Nat.ltb_lt. vm_compute. reflexivity.
  - intros E. exfalso. apply NE. exact E.
Qed.
(** ESC space sets the mark, ^P loads a line that is shorter, ^X^X goes to the mark, beyond the line. *)
Theorem c63_stale_mark_refuted : exists h t, sane (env1 h) /\ typed h t = UB.
Proof.
  exists [L "ls"], (L "echo one" ++ [esc; " "%char; "016"%char; "024"%char; "024"%char]). split; [ apply env1_sane; [ vm_compute; reflexivity | discriminate ] | vm_compute; reflexivity ].
Qed.
Print Assumptions c63_stale_mark_refuted.
(** 2100 letters are killed and yanked; at the beginning of the line there is no room for them again, but ESC y takes them for yanked
    and goes back 2100 places. *)
Definition long : cstr := repeat "a"%char 2100.
Theorem c63_lost_yank_refuted : typed [] (long ++ [ctrl "A"; ctrl "K"; ctrl "Y"; ctrl "A"; ctrl "Y"; esc; "y"%char]) = UB.
Proof. vm_compute. reflexivity. Qed.
Print Assumptions c63_lost_yank_refuted.
Theorem c63_number_refuted : typed [] (esc :: L "99999999999") = UB.
Proof. vm_compute. reflexivity. Qed.
Print Assumptions c63_number_refuted.
(** ESC . without history *)
Theorem c63_histword_refuted : typed [] [esc; "."%char] = UB /\ typed [[]] [esc; "."%char] = UB.
Proof. split; vm_compute; reflexivity. Qed.
Print Assumptions c63_histword_refuted.
(** A history line that does not fit is cut, but the search finds its end. *)
Theorem c63_long_history_refuted : typed [long ++ long ++ L "x"] (ctrl "R" :: L "x") = UB.
Proof. vm_compute. reflexivity. Qed.
Print Assumptions c63_long_history_refuted.
Example c63_example_line : match typed [L "ls"] (L "echo two three" ++ [esc; "b"%char; ctrl "W"; ctrl "E"; " "%char; ctrl "Y"; ctrl "J"]) with Ok (TLine t _) => t = L "echo three two " ++ [NL] | _ => False end.
Proof. vm_compute. reflexivity. Qed.
Example c63_example_sane : sane (env1 [L "ls"; L "echo one"]).
Proof. apply env1_sane; [ vm_compute; reflexivity | discriminate ]. Qed.

(** ** C64 *)
(** What a kill command takes out of the line is one piece of it, the piece its description says; it becomes the first of at most 20
    kills.  A yank then puts it back where it was. *)
Theorem c64_kill e f g c a s r s1 : inv e s -> ring_wf (kills s) (ksp s) -> kill_cmd g -> run e f g c a s = Ok (r, s1) -> txt s1 <> txt s ->
  r = KSTD /\ exists l k z, txt s = l ++ k ++ z /\ txt s1 = l ++ z /\ cur s1 = length l /\ k <> [] /\ kills_what a g s l k z /\
    ring s1 = k :: firstn 19 (ring s) /\ ring_wf (kills s1) (ksp s1).
Proof.
  intros I W G H NE. destruct (kill_run e f g c a s r s1 I G H NE) as (-> & l & k & z & K & KW & KN). split; [ reflexivity | ].
  destruct (ring_killed s s1 l k z W K) as (R1 & R2). destruct K as (T & T1 & C1 & _). exists l, k, z. sp; auto.
Qed.
Print Assumptions c64_kill.
Theorem c64_kill_yank e f g c a s r s1 f2 c2 a2 : inv e s -> kill_cmd g -> run e f g c a s = Ok (r, s1) -> txt s1 <> txt s ->
  exists s2, run e f2 F_yank c2 a2 s1 = Ok (KSTD, s2) /\ txt s2 = txt s.
Proof.
  intros I G H NE. destruct (kill_run e f g c a s r s1 I G H NE) as (-> & l & k & z & K & _). destruct (yank_killed e s s1 l k z I K) as (s2 & E & T & _).
  exists s2. split; [ cbn [run]; rewrite E; reflexivity | exact T ].
Qed.
Print Assumptions c64_kill_yank.
(** No other command changes the kills. *)
Theorem c64_kept e f g c a s r s1 : ~ kill_cmd g -> run e f g c a s = Ok (r, s1) -> ring s1 = ring s.
Proof. intros NK H. destruct (run_ring e f g c a s r s1 NK H) as (K1 & K2). unfold ring. rewrite K1, K2. reflexivity. Qed.
Print Assumptions c64_kept.
(** A yank and [j] times yank-pop leave the kill number [j], counted around, in the line where the cursor was, and the cursor after it,
    if there is room. *)
Theorem c64_yank_pop e s j s' : ring_wf (kills s) (ksp s) -> ring s <> [] -> cur s <= length (txt s) ->
  (forall t, In t (ring s) -> length (txt s) + length t < cap e) -> yanks e s j s' ->
  txt s' = firstn (cur s) (txt s) ++ nth (j mod length (ring s)) (ring s) [] ++ skipn (cur s) (txt s) /\
  cur s' = cur s + length (nth (j mod length (ring s)) (ring s) []) /\ ring s' = ring s.
Proof.
  intros W NE LE FIT Y. destruct (yanks_yanked e s j s' W NE LE FIT Y) as (K1 & K2 & _ & p & t & P & _ & N & CT & T & C).
  destruct (count_split (order s) p t) as (_ & E & _); [ rewrite order_length; destruct W as (L & _); lia | exact N | ].
  rewrite <- ring_somes, CT in E. rewrite E. sp; auto. unfold ring. rewrite K1, K2. reflexivity.
Qed.
Print Assumptions c64_yank_pop.
(** Commands that move do not change the line. *)
Theorem c64_motion e f g c a s r s1 : motion g -> run e f g c a s = Ok (r, s1) -> r = KSTD /\ txt s1 = txt s.
Proof. intros M H. destruct (motion_frame e f g c a s r s1 M H) as (R & T & _). auto. Qed.
Print Assumptions c64_motion.
(** ^B, ^F, erase and delete without an argument are for one character with all its bytes. *)
Theorem c64_char_before e f c s l ch r : txt s = l ++ ch ++ r -> cur s = length (l ++ ch) -> is_char ch ->
  run e f F_mv_back c None s = Ok (KSTD, with_txt (txt s) (length l) s) /\
  exists s1, run e f F_del_back c None s = Ok (KSTD, s1) /\ txt s1 = l ++ r /\ cur s1 = length l /\ kills s1 = kills s.
Proof. apply char_back. Qed.
Print Assumptions c64_char_before.
Theorem c64_char_after e f c s l ch r : txt s = l ++ ch ++ r -> cur s = length l -> is_char ch -> (forall c z, r = c :: z -> starts c) ->
  run e f F_mv_forw c None s = Ok (KSTD, with_txt (txt s) (length (l ++ ch)) s) /\
  exists s1, run e f F_del_char c None s = Ok (KSTD, s1) /\ txt s1 = l ++ r /\ cur s1 = length l /\ kills s1 = kills s.
Proof. apply char_forw. Qed.
Print Assumptions c64_char_after.
(** ^T exchanges two bytes: the one before the cursor with the next one, or the two before it at the end of the line and in gmacs mode. *)
Theorem c64_transpose e f c n s l a b r : txt s = l ++ a :: b :: r ->
  (cur s = length l + 1 -> gmacs e = false -> run e f F_transpose c n s = Ok (KSTD, with_txt (l ++ b :: a :: r) (length l + 2) s)) /\
  (cur s = length l + 2 -> gmacs e = true \/ r = [] -> run e f F_transpose c n s = Ok (KSTD, with_txt (l ++ b :: a :: r) (length l + 2) s)).
Proof. apply transpose_run. Qed.
Print Assumptions c64_transpose.
(** Text that is typed comes into the line at the cursor byte by byte, valid UTF-8 or not, if its characters are not bound; a newline key
    gives the line to the shell, and what was typed ahead stays. *)
Theorem c64_typed e f g k t l r rest s : prefix_free (keys e) -> In k (keys e) -> ascii_seq (seq_of k) -> fn k = F_newline ->
  4 <= line_max e -> length (seq_of k) <= line_max e -> length (seq_of k) <= S f -> length t < g ->
  no_nul t -> (forall c, In c t -> unbound e c) -> byte_ok s -> lit s = false -> arg s = None ->
  view s = t ++ seq_of k ++ rest -> txt s = l ++ r -> cur s = length l -> length (l ++ t ++ r) < cap e ->
  exists s', edit e (S f) g s = Ok (TLine (l ++ t ++ r ++ [NL]) s') /\ cur s' = length (l ++ t) /\ view s' = rest.
Proof.
  intros PF IK AS FN L4 LM LF G NN UB_ B LI AR V T C FIT.
  destruct (typed_line e f k l r rest PF IK AS FN L4 LM LF (length t) t [] s g (le_n _) NN UB_ B LI AR V) as (s' & E & C' & V' & _); auto.
  - cbn. rewrite app_nil_r. exact C.
  - exists s'. auto.
Qed.
Print Assumptions c64_typed.

Definition at_end (t : cstr) : ed := Ed t (length t) None ring0 0 0 None None false 0 (-1) None None [].
Example c64_example_kill : exists s1, run (env1 []) 9 F_del_bword (ctrl "W") None (at_end (L "echo two")) = Ok (KSTD, s1) /\ txt s1 = L "echo " /\ ring s1 = [L "two"].
Proof. eexists. split; [ reflexivity | split; reflexivity ]. Qed.
Example c64_example_wf : ring_wf ring0 0.
Proof. unfold ring_wf. sp; [ reflexivity | lia | right; intros i L_; split; [ | lia ]; intros H; exfalso; apply H; unfold ring0; do 20 (destruct i as [|i]; [ reflexivity | ]); destruct i; reflexivity ]. Qed.
(** Three kills; the second yank-pop gives the oldest, the third the latest again. *)
Definition three : ed := Ed (L "ab") 1 None (set_nth (set_nth (set_nth ring0 0 (Some (L "x"))) 1 (Some (L "yy"))) 2 (Some (L "zzz"))) 3 0 None None false 0 (-1) None None [].
Definition env2 : env := Env 40 40 [] 1 init_keys false (L " ") none.
Definition did g (s : ed) : ed := match run env2 9 g "y" None s with Ok (_, s) => s | _ => s end.
Definition pop (s : ed) : ed := with_last (Some F_meta_yank) (with_arg None (did F_meta_yank s)).
Definition yank (s : ed) : ed := with_last (Some F_yank) (with_arg None (did F_yank s)).
Example c64_example_pop : map txt [yank three; pop (yank three); pop (pop (yank three)); pop (pop (pop (yank three)))] = [L "azzzb"; L "ayyb"; L "axb"; L "azzzb"].
Proof. reflexivity. Qed.
Example c64_example_yanks : yanks env2 three 1 (pop (yank three)) /\ ring three = [L "zzz"; L "yy"; L "x"] /\ ring_wf (kills three) (ksp three).
Proof.
  split; [ apply ys_pop with (s1 := yank three); [ apply ys_yank | ] | ].
  - exists 9, "y"%char, (did F_yank three). split; [ vm_compute; reflexivity | reflexivity ].
  - exists 9, "y"%char, (did F_meta_yank (yank three)). split; [ vm_compute; reflexivity | reflexivity ].
  - split; [ reflexivity | ]. unfold ring_wf. sp; [ reflexivity | cbn; lia | ]. right. intros i L_. cbn [ksp three]. do 20 (destruct i as [|i]; [ cbn; split; [ intros H; try lia; exfalso; apply H; reflexivity | intros H; try discriminate; lia ] | ]). lia.
Qed.
(** The bytes of a character of UTF-8 are exchanged as any others: the line is no UTF-8 any more. *)
Theorem c64_transpose_utf8_refuted : exists s s1, txt s = L "a" ++ ["195"%char; "169"%char] /\ run (env1 []) 9 F_transpose (ctrl "T") None s = Ok (KSTD, s1) /\ txt s1 = L "a" ++ ["169"%char; "195"%char].
Proof. exists (at_end (L "a" ++ ["195"%char; "169"%char])). eexists. split; [ reflexivity | split; reflexivity ]. Qed.
Print Assumptions c64_transpose_utf8_refuted.
Example c64_example_char : is_char ["195"%char; "169"%char].
Proof. exists "195"%char, ["169"%char]. split; [ reflexivity | ]. split; [ right; vm_compute; lia | repeat constructor; vm_compute; lia ]. Qed.

(** What is printable is not bound at startup. *)
Example c64_example_unbound : forall h c, 32 <= nat_of_ascii c -> nat_of_ascii c <> 127 -> unbound (env1 h) c.
Proof.
  intros h c A B k IK z E. change (In k init_keys) in IK.
  assert (F : forallb (fun k => match seq_of k with c :: _ => (nat_of_ascii c <? 32) || (nat_of_ascii c =? 127) | [] => true end) init_keys = true) by (vm_compute; reflexivity).
  rewrite forallb_forall in F. apply F in IK. rewrite E in IK. apply Bool.orb_true_iff in IK. rewrite Nat.ltb_lt, Nat.eqb_eq in IK. lia.
Qed.
Example c64_example_newline : In (Bind ["013"%char] F_newline None) init_keys. Proof. vm_compute. auto 100. Qed.
Example c64_example_typed : match typed [] (L "x=" ++ ["195"%char; "169"%char; "195"%char; "x"%char; "169"%char; "013"%char]) with Ok (TLine t _) => t = L "x=" ++ ["195"%char; "169"%char; "195"%char; "x"%char; "169"%char; NL] | _ => False end.
Proof. vm_compute. reflexivity. Qed.

(** ** C65 *)
Lemma free_check : forall ks, forallb (fun k => negb (length (seq_of k) =? 0) && (length (filter (fun k' => prefix (seq_of k) (seq_of k')) ks) =? 1)) ks = true -> prefix_free ks.
Proof.
  intros ks H. rewrite forallb_forall in H. split.
  - intros k IK E. apply H in IK. rewrite E in IK. discriminate.
  - intros l1 k l2 k' E IK P. assert (IN : In k ks) by (rewrite E; apply in_or_app; right; left; reflexivity). apply H in IN. apply andb_true_iff in IN. destruct IN as (_ & N). apply Nat.eqb_eq in N.
    rewrite E in N. rewrite filter_app in N. cbn [filter] in N. replace (prefix (seq_of k) (seq_of k)) with true in N by (symmetry; apply prefix_iff; apply is_prefix_refl).
    rewrite app_length in N. cbn [length] in N. apply prefix_iff in P.
    apply in_app_or in IK. destruct IK as [IK|IK].
    + assert (Q : In k' (filter (fun k' => prefix (seq_of k) (seq_of k')) l1)) by (apply filter_In; auto). destruct (filter _ l1); [ destruct Q | cbn in N; lia ].
    + assert (Q : In k' (filter (fun k' => prefix (seq_of k) (seq_of k')) l2)) by (apply filter_In; auto). destruct (filter _ l2); [ destruct Q | cbn in N; lia ].
Qed.
Lemma init_free : prefix_free init_keys. Proof. apply free_check. vm_compute. reflexivity. Qed.
Lemma kept_add : forall g a s ks k, In k ks -> In k (kb_add g a s ks).
Proof. intros g a s ks k IK. unfold kb_add. destruct (kb_match s ks); auto. apply in_or_app. auto. Qed.
(** When the keys of one binding are typed, its function is run, once, with the last key; or its macro is read next. *)
Theorem c65_dispatch e k f rest s : prefix_free (keys e) -> In k (keys e) -> ascii_seq (seq_of k) -> length (seq_of k) <= line_max e ->
  byte_ok s -> lit s = false -> view s = seq_of k ++ rest ->
  let s' := with_in None None rest s in
  key e (f + length (seq_of k)) [] 0 s =
    match fn k, args k with
    | F_ins_string, Some m => Ok (TGo (with_last (Some F_ins_string) (with_arg None (with_in None (Some m) rest s))))
    | g, _ => do r <- run e (f + 1) g (last (seq_of k) NUL) (arg s) s' ; Ok (after (Some g) (func_beq g F_set_arg) r)
    end.
Proof.
  intros PF IK AS LM B LI V s'. destruct (seq_of k) as [|d z] eqn:SK; [ exfalso; apply (proj1 PF k IK); exact SK | ].
  destruct (key_seq e k PF IK ltac:(rewrite SK; exact AS) ltac:(rewrite SK; exact LM) z [] d 0 (f + length (d :: z)) rest s SK B LI V ltac:(cbn; lia)) as (s1 & K & ->).
  rewrite K. replace (f + length (d :: z) - length z) with (f + 1) by (cbn; lia). unfold what. rewrite SK. destruct (fn k); reflexivity.
Qed.
Print Assumptions c65_dispatch.
(** A character that is bound to nothing, or that comes after quote, is inserted. *)
Theorem c65_self_insert e f s c v : byte_ok s -> 4 <= line_max e -> view s = c :: v -> lit s = true \/ unbound e c -> c <> NUL -> arg s = None ->
  length (txt s) + 4 < cap e -> cur s <= length (txt s) ->
  exists b w s', v = b ++ w /\ Forall goes_on b /\ key e (S f) [] 0 s = Ok (TGo s') /\ view s' = w /\
    txt s' = firstn (cur s) (txt s) ++ (c :: b) ++ skipn (cur s) (txt s) /\ cur s' = cur s + length (c :: b) /\ lit s' = false /\ arg s' = None.
Proof.
  intros B LM V U NN AR FIT LE. destruct (key_plain e f s c v B LM V U NN AR) as (b & w & s' & E1 & LB & FB & _ & K & ES & B' & V').
  exists b, w, s'. rewrite ins_fits in ES by (cbn [length]; lia). rewrite ES. sp; auto. rewrite K. f_equal. f_equal. exact ES.
Qed.
Print Assumptions c65_self_insert.
(** The bindings at startup are all there and no one hides another; also with the characters of any terminal. *)
Theorem c65_startup : prefix_free init_keys /\ (forall g t, In (g, t) default_keys -> In (Bind (encode t) g None) init_keys) /\
  forall er ki we it qu, prefix_free (tty_keys er ki we it qu init_keys) /\ forall k, In k init_keys -> In k (tty_keys er ki we it qu init_keys).
Proof.
  assert (ONE : forall g c ks, prefix_free ks -> ks <> [] -> prefix_free (kb_add g None (tty_key c) ks)).
  { intros g c ks PF NE. unfold tty_key. destruct (is_nul c).
    - unfold kb_add. replace (kb_match [] ks) with true; [ exact PF | ]. symmetry. apply kb_match_iff. destruct ks as [|k ks]; [ congruence | ]. exists k. split; [ left; reflexivity | exists (seq_of k); reflexivity ].
    - apply add_free; [ exact PF | discriminate | ]. intros k IK (z & P). destruct (seq_of k) as [|x q] eqn:SK; [ exfalso; apply (proj1 PF k IK); exact SK | ]. cbn in P. inversion P as [[P1 P2]]. symmetry in P2. apply app_eq_nil in P2. destruct P2; subst. reflexivity. }
  assert (ESC : forall g c ks k d z, prefix_free ks -> In k ks -> seq_of k = ctrl "[" :: d :: z -> prefix_free (kb_add g None ([ctrl "["] ++ tty_key c) ks)).
  { intros g c ks k d z PF IK SK. unfold tty_key. destruct (is_nul c).
    - cbn [app]. unfold kb_add. replace (kb_match [ctrl "["] ks) with true; [ exact PF | ]. symmetry. apply kb_match_iff. exists k. split; [ exact IK | rewrite SK; exists (d :: z); reflexivity ].
    - apply add_free; [ exact PF | discriminate | ]. intros k' IK' (y & P). destruct (seq_of k') as [|a [|b q]] eqn:SK'.
      + exfalso. apply (proj1 PF k' IK'). exact SK'.
      + exfalso. cbn [app] in P. assert (A1 : a = ctrl "[") by (inversion P; reflexivity). clear P. subst a. destruct (in_split _ _ IK') as (l1 & l2 & E). apply (proj2 PF l1 k' l2 k E).
        * rewrite E in IK. apply in_app_or in IK. apply in_or_app. destruct IK as [IK|[IK|IK]]; auto. subst k'. rewrite SK in SK'. discriminate.
        * rewrite SK', SK. exists (d :: z). reflexivity.
      + cbn [app] in P. assert (P' : a = ctrl "[" /\ b = c /\ q ++ y = []) by (inversion P; auto). destruct P' as (-> & -> & P'). apply app_eq_nil in P'. destruct P' as (-> & ->). reflexivity. }
  split; [ exact init_free | ]. split.
  - intros g t IT. assert (F : forallb (fun p => existsb (fun k => str_eqb (seq_of k) (encode (snd p)) && func_beq (fn k) (fst p) && match args k with None => true | _ => false end) init_keys) default_keys = true) by (vm_compute; reflexivity).
    clear ONE ESC. revert F. generalize init_keys. intros ik F. rewrite forallb_forall in F. specialize (F _ IT). clear IT. apply existsb_exists in F. destruct F as (k & IK & F). cbn [fst snd] in F. apply andb_true_iff in F. destruct F as (F & F3). apply andb_true_iff in F. destruct F as (F1 & F2).
    apply str_eqb_true in F1. apply internal_func_dec_bl in F2. destruct k as [sq fn_ [a|]]; [ discriminate | ]. cbn in F1, F2. subst. exact IK.
  - intros er ki we it qu. unfold tty_keys.
    assert (K0 : In (Bind (encode (L "^[b")) F_mv_bword None) init_keys) by (vm_compute; auto 10).
    pose proof init_free as IF0. revert K0 IF0. generalize init_keys. intros ik K0 IF0. revert K0. generalize (encode (L "^[b")) (eq_refl : encode (L "^[b") = ctrl "[" :: "b"%char :: []). intros eb EB K0.
    assert (STEP : forall g c ks, prefix_free ks /\ In (Bind eb F_mv_bword None) ks -> prefix_free (match c with Some c => kb_add g None ([] ++ tty_key c) ks | None => ks end) /\ In (Bind eb F_mv_bword None) (match c with Some c => kb_add g None ([] ++ tty_key c) ks | None => ks end)).
    { intros g [c|] ks (PF & IK); [ | auto ]. split; [ apply ONE; [ exact PF | destruct ks; [ destruct IK | discriminate ] ] | apply kept_add; exact IK ]. }
    split.
    + do 4 apply STEP. pose proof (STEP F_del_back er ik (conj IF0 K0)) as (P1 & P2). destruct er as [c|]; [ | auto ].
      split; [ eapply ESC; [ exact P1 | exact P2 | exact EB ] | apply kept_add; exact P2 ].
    + intros k IK. assert (KE : forall g l c ks, In k ks -> In k (match c with Some c => kb_add g None (l ++ tty_key c) ks | None => ks end)) by (intros g l [c|] ks Q; [ apply kept_add; exact Q | exact Q ]). repeat apply KE. exact IK.
Qed.
Print Assumptions c65_startup.
(** bind keys=function, bind -m keys=macro, bind keys=: the keys are bound to that and to nothing else before or after, the other
    bindings stay, and no one hides another, provided that no other binding is the beginning of these keys or begins with them. *)
Theorem c65_bind n named a1 a2 mac ks ks' : prefix_free ks -> x_bind n named a1 a2 mac ks = Ok (Some ks') ->
  let key := cut (encode a1) in
  key <> [] -> (forall k, In k ks -> is_prefix (seq_of k) key \/ is_prefix key (seq_of k) -> seq_of k = key) ->
  prefix_free ks' /\ (forall k, seq_of k <> key -> (In k ks' <-> In k ks)) /\
  forall k, seq_of k = key -> (In k ks' <-> a2 <> [] /\
    if mac then fn k = F_ins_string /\ args k = Some (cut (encode a2)) else named a2 = Some (fn k) /\ args k = None).
Proof.
  intros PF H key NE CF. unfold x_bind in H. destruct (in_buf n (encode a1)) as [k0| |] eqn:IB; cbn [then_] in H; try discriminate.
  assert (k0 = encode a1) by (unfold in_buf in IB; destruct (_ <? _); inversion IB; reflexivity). subst k0. cbv zeta in H. fold key in H.
  pose proof (del_free key ks PF) as DF. pose proof (fun b => del_in key ks b PF) as DI.
  assert (NM : kb_match key (kb_del key ks) = false).
  { destruct (kb_match key (kb_del key ks)) eqn:M; auto. apply kb_match_iff in M. destruct M as (k & IK & P). apply DI in IK. destruct IK as (IK & N). exfalso. apply N. apply CF; auto. }
  assert (ADD : forall g a, prefix_free (kb_add g a key (kb_del key ks)) /\ (forall k, In k (kb_add g a key (kb_del key ks)) <-> (In k ks /\ seq_of k <> key) \/ k = Bind key g a)).
  { intros g a. split.
    - apply add_free; auto. intros k IK P. apply DI in IK. apply CF; tauto.
    - intros k. unfold kb_add. rewrite NM. rewrite in_app_iff, DI. cbn [In]. split; [ intros [A|[A|[]]]; auto | intros [A|A]; [ left; exact A | right; left; congruence ] ]. }
  destruct a2 as [|x a2].
  - inversion H. subst. split; [ exact DF | ]. split; [ intros k N; rewrite DI; tauto | ]. intros k E. rewrite DI. split; [ tauto | intros (Q & _); congruence ].
  - destruct mac.
    + destruct (in_buf n (encode (x :: a2))) as [m| |] eqn:IM; cbn [then_] in H; try discriminate.
      assert (m = encode (x :: a2)) by (unfold in_buf in IM; destruct (_ <? _); inversion IM; reflexivity). subst m. inversion H. subst ks'. destruct (ADD F_ins_string (Some (cut (encode (x :: a2))))) as (A1 & A2). split; [ exact A1 | ]. split.
      * intros k N. rewrite A2. split; [ intros [Q|Q]; [ tauto | exfalso; apply N; rewrite Q; reflexivity ] | tauto ].
      * intros k E. rewrite A2. split; [ intros [Q| ->]; [ tauto | split; [ discriminate | split; reflexivity ] ] | intros (_ & F1 & F2); right; destruct k; cbn in *; congruence ].
    + destruct (named (x :: a2)) as [g|] eqn:NA; [ | discriminate ]. inversion H. subst ks'. destruct (ADD g None) as (A1 & A2). split; [ exact A1 | ]. split.
      * intros k N. rewrite A2. split; [ intros [Q|Q]; [ tauto | exfalso; apply N; rewrite Q; reflexivity ] | tauto ].
      * intros k E. rewrite A2. split; [ intros [Q| ->]; [ tauto | split; [ discriminate | split; [ cbn; reflexivity | reflexivity ] ] ] | intros (_ & F1 & F2); right; destruct k; cbn in *; congruence ].
Qed.
Print Assumptions c65_bind.
(** Without the proviso: when ^Aa is bound as well, ^A does nothing any more but wait; a key that others begin with is not bound, and
    bind does not tell. *)
Theorem c65_longer_refuted : exists ks', x_bind 4096 (fun _ => Some F_mv_end) (L "^Aa") (L "f") false init_keys = Ok (Some ks') /\ In (Bind [ctrl "A"] F_mv_begin None) ks' /\
  let e := Env 4096 4096 [] 1 ks' false [] none in
  forall i, key e 2 [] 0 (with_in None None (ctrl "A" :: "b"%char :: i) (at_end (L "xy"))) = Ok (TGo (with_in None None i (at_end (L "xy")))).
Proof.
  eexists. split; [ vm_compute; reflexivity | ]. split; [ vm_compute; auto 100 | ]. intros e i. vm_compute. reflexivity.
Qed.
Print Assumptions c65_longer_refuted.
Theorem c65_prefix_refuted : exists ks', x_bind 4096 (fun _ => Some F_mv_end) (L "^[") (L "f") false init_keys = Ok (Some ks') /\ ks' = init_keys.
Proof. eexists. split; [ vm_compute; reflexivity | vm_compute; reflexivity ]. Qed.
Print Assumptions c65_prefix_refuted.
(** What bind shows for the keys is, given to bind, these keys, unless they have a ^ that a letter, a control character or one of
    ?@[\]^_`{|}~ follows. *)
Theorem c65_shown_partial s : (forall l d r, s = l ++ "^"%char :: d :: r -> 32 <= nat_of_ascii d < 63 \/ 128 <= nat_of_ascii d) -> encode (decode s) = s.
Proof.
  intros H. apply encode_decode. intros l c d r E ->. specialize (H l d r E).
  pose proof (char_sweep (fun d => implb (((32 <=? nat_of_ascii d) && (nat_of_ascii d <? 63)) || (128 <=? nat_of_ascii d)) (negb (is_cntrl d) && negb (ctrl_of d))) eq_refl d) as W. cbv beta in W.
  replace (((32 <=? nat_of_ascii d) && (nat_of_ascii d <? 63)) || (128 <=? nat_of_ascii d)) with true in W.
  - cbn [implb] in W. apply andb_true_iff in W. destruct W as (W1 & W2). apply Bool.negb_true_iff in W1. apply Bool.negb_true_iff in W2. auto.
  - symmetry. apply Bool.orb_true_iff. rewrite andb_true_iff, !Nat.leb_le, Nat.ltb_lt. lia.
Qed.
Print Assumptions c65_shown_partial.
Theorem c65_shown_refuted : encode (decode (L "^a")) <> L "^a".
Proof. vm_compute. discriminate. Qed.
Print Assumptions c65_shown_refuted.
Example c65_example_shown : decode [ctrl "X"; ctrl "["; "?"%char] = L "^X^[?" /\ encode (L "^X^[?") = [ctrl "X"; ctrl "["; "?"%char].
Proof. split; reflexivity. Qed.
Example c65_example_bind : exists ks', x_bind 4096 (fun _ => None) (L "^Xq") (L "ls^M") true init_keys = Ok (Some ks') /\ In (Bind [ctrl "X"; "q"%char] F_ins_string (Some (L "ls" ++ ["013"%char]))) ks'.
Proof. eexists. split; [ vm_compute; reflexivity | ]. vm_compute. auto 200. Qed.
Example c65_example_macro : match edit (Env 4096 4096 [] 1 (Bind [ctrl "X"; "q"%char] F_ins_string (Some (L "ls" ++ ["013"%char])) :: init_keys) false [] none) 99 99
    (start (env1 []) ring0 0 0 (-1) None None (L "time " ++ [ctrl "X"; "q"%char])) with Ok (TLine t _) => t = L "time ls" ++ [NL] | _ => False end.
Proof. vm_compute. reflexivity. Qed.
