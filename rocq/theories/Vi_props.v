(** C59: the vi line editor stays inside its buffers. *)
From Verif Require Import Base Vi_model Vi_spec Vi_proof Vi_inv Vi_step.
Local Open Scope Z_scope.

(** The full property is false (see the refutations below): for any list of keys and new lines, nothing outside the
    buffers of the editor is read or written and no count leaves the type int. *)
Definition safe_session (k : cfg) (l : list event) : Prop := exists s, run k l st0 = Ok s.

(** C59: in a session that avoids the cases listed in [allowed], nothing outside the buffers is touched, and as long as
    a line is edited the cursor is in it and the line in its buffer, with room for the byte that ends it. *)
Theorem c59_safe_partial k l : okcfg k -> allowed_run k l st0 -> run k l st0 <> Oob.
Proof.
  intros K A E. pose proof (run_ok k l st0 K (st0_inv k) A) as H. rewrite E in H. exact H.
Qed.
Print Assumptions c59_safe_partial.
Theorem c59_in_line_partial k l s : okcfg k -> allowed_run k l st0 -> run k l st0 = Ok s -> fin s = false -> in_line (es s).
Proof.
  intros K A E F. pose proof (run_ok k l st0 K (st0_inv k) A) as H. rewrite E in H. cbn in H. destruct H as [[X _]|X]; [congruence|].
  eapply live_line; eauto.
Qed.
Print Assumptions c59_in_line_partial.
(** In command mode the cursor is on a character, or the line is empty. *)
Theorem c59_on_char_partial k l s : okcfg k -> allowed_run k l st0 -> run k l st0 = Ok s -> fin s = false ->
  vs s = VNORMAL -> ins s = COMMAND -> cur (es s) < len (es s) \/ cur (es s) = 0 /\ len (es s) = 0.
Proof.
  intros K A E F V I. pose proof (run_ok k l st0 K (st0_inv k) A) as H. rewrite E in H. cbn in H. destruct H as [[X _]|X]; [congruence|].
  unfold live in X. rewrite V in X. destruct X as [_ X]. unfold imode in X. rewrite I in X. unfold cpos in X. lia.
Qed.
Print Assumptions c59_on_char_partial.

(** ** The cases that are left out are real. *)
Definition k0 := Cfg (Some DEL) (Some "021"%char) (Some "023"%char) false false false.
Definition keys (s : cstr) : list event := map (fun c => Key c false None) s.
Definition go (s : cstr) : res st := run k0 (Start (zeros LINE) [] 0 :: keys s) st0.
Definition eacute : cstr := ["195"; "169"]%char.

(** a after the last character: forw_ skips the bytes that follow the line in the buffer if they continue a character.
    Here they are those of a character deleted before ... *)
Theorem c59_a_stale_refuted : go (L "xy" ++ eacute ++ [ESC] ++ L "0x$az") = Oob.
Proof. vm_compute. reflexivity. Qed.
(** ... and here, although only ASCII is typed, those of the line read before. *)
Theorem c59_a_old_line_refuted :
  run k0 (Start (L "echo " ++ eacute ++ eacute ++ zeros (LINE - 9)) [] 0 :: keys (L "abcdef" ++ [ESC] ++ L "ax")) st0 = Oob.
Proof. vm_compute. reflexivity. Qed.
(** The kill character in replace mode moves the cursor before the place that erase stops at. *)
Theorem c59_replace_kill_refuted : go (L "abc" ++ [ESC] ++ L "R" ++ ["021"%char; DEL]) = Oob.
Proof. vm_compute. reflexivity. Qed.
(** cw on an empty line looks at the character before it. *)
Theorem c59_cw_empty_refuted : go ([ESC] ++ L "cw") = Oob.
Proof. vm_compute. reflexivity. Qed.
(** A line that begins with a byte that continues a character. *)
Theorem c59_continuation_first_refuted : go (["128"%char] ++ [ESC]) = Oob.
Proof. vm_compute. reflexivity. Qed.
(** A search line given up by an interrupt: its length is still there in the next one. *)
Theorem c59_search_interrupt_refuted :
  run k0 (Start (zeros LINE) [] 0 :: keys ([ESC] ++ L "/abc") ++
          Start (zeros LINE) [] 0 :: keys ([ESC] ++ L "/" ++ [DEL; DEL] ++ L "x")) st0 = Oob.
Proof. vm_compute. reflexivity. Qed.
(** A literal NUL is taken out of the line but not out of the text to repeat. *)
Theorem c59_literal_nul_refuted : go (concat (repeat [cV; NUL] (Z.to_nat 4097))) = Oob.
Proof. vm_compute. reflexivity. Qed.
(** A count before /: the search line is written after the line, which may be full. *)
Theorem c59_count_search_refuted : go (repeat "x"%char (Z.to_nat 4095) ++ [ESC] ++ L "1/ab") = Oob.
Proof. vm_compute. reflexivity. Qed.
(** A count that is not an int. *)
Theorem c59_count_overflow_refuted : go ([ESC] ++ L "9999999999l") = Ovf.
Proof. vm_compute. reflexivity. Qed.

(** ** Sessions that meet the hypotheses *)
Definition shown (r : res st) : option (cstr * Z) :=
  match r with Ok s => Some (firstn (Z.to_nat (len (es s))) (buf (es s)), cur (es s)) | _ => None end.
(** A boolean check that is enough for [allowed]. *)
Definition ckey (k : cfg) (v : event) (s : st) : bool :=
  match v with
  | Start b h n => (Z.of_nat (length b) =? LINE) && forallb (fun c => negb (isu8cont k c)) b &&
      forallb (forallb (fun c => negb (isu8cont k c))) h && (sl s =? 0)
  | Key c m x =>
      (ccode c <? 128) && match x with None => true | _ => false end &&
      negb (match ins s with REPLACE => is_key (kill k) c || is_key (werase k) c | _ => false end) &&
      negb (match vs s with VARG1 => is_srch c | _ => false end) &&
      negb (ceq c NUL) && negb m && negb ((len (es s) =? 0) && match vs s with VEXTCMD | VARG2 => true | _ => false end) && 
      (negb (ceq c ".") || negb (len (es s) =? 0) && match step k v s with Ok s' => negb (is_ins (ins s')) | _ => true end)
  end.
Lemma forallb_nocont k b : forallb (fun c => negb (isu8cont k c)) b = true -> nocont k b.
Proof.
  intros H. rewrite forallb_forall in H. apply Forall_forall. intros c I. specialize (H c I). apply negb_true_iff in H. auto.
Qed.
Lemma ckey_allowed k v s : ckey k v s = true -> allowed k v s.
Proof.
  destruct v as [c m x|b h n]; cbn [ckey allowed]; intros H.
  - repeat (apply andb_prop in H as [H ?H0]). repeat match goal with H : negb _ = true |- _ => apply negb_true_iff in H end.
    split; [lia|]. split; [destruct x; [discriminate|reflexivity]|].
    split; [intros (_ & E & [X|X]); rewrite E, X in *; cbn in *; [discriminate|rewrite orb_true_r in *; discriminate]|].
    split; [intros (E & X); rewrite E, X in *; discriminate|]. split; [intros (_ & ->); discriminate|].
    split; [intros (-> & _); discriminate|].
    split; [intros (E & [V|V] & _); rewrite E, V in *; discriminate|].
    intros -> _. cbn [ceq Ascii.eqb Bool.eqb negb orb] in H0. apply andb_prop in H0 as [A B]. split.
    + intros (E & _). rewrite E in A. discriminate.
    + intros s' E. rewrite E in B. destruct (ins s'); auto; discriminate.
  - repeat (apply andb_prop in H as [H ?H0]). split; [lia|]. split; [apply forallb_nocont; auto|]. split.
    + rewrite forallb_forall in H1. apply Forall_forall. intros t I. apply forallb_nocont; auto.
    + intros (_ & _ & X). lia.
Qed.
Fixpoint crun (k : cfg) (l : list event) (s : st) : bool :=
  match l with
  | [] => true
  | v :: l => ckey k v s && match step k v s with Ok s' => crun k l s' | _ => true end
  end.
Lemma crun_allowed k l : forall s, crun k l s = true -> allowed_run k l s.
Proof.
  induction l as [|v l IH]; cbn [crun allowed_run]; intros s H; [auto|]. apply andb_prop in H as [A B]. split; [apply ckey_allowed; auto|].
  intros s' E. rewrite E in B. auto.
Qed.
(** Inserting, moving, deleting, putting, undoing, replacing, changing, repeating, history and search; an interrupt. *)
Definition session : list event :=
  Start (zeros LINE) [L "echo one"; L "print two"] 0 ::
  keys (L "hello world" ++ [ESC] ++ L "bdwu0xp2hRz" ++ [ESC] ++ L "cwabc" ++ [ESC] ++ L "fo3xuUkj/one" ++ [NL] ++ L "n2x.$i" ++ [cV; "001"%char] ++ L "y") ++
  Start (zeros LINE) [] 0 :: keys (L "true").
Example c59_example : okcfg k0 /\ allowed_run k0 session st0 /\ shown (run k0 session st0) = Some (L "true", 4).
Proof.
  split; [repeat split|]. split; [apply crun_allowed; vm_compute; reflexivity|vm_compute; reflexivity].
Qed.
Example c59_example_search : shown (run k0 (firstn 45 session) st0) = Some (L "echo one", 0).
Proof. vm_compute. reflexivity. Qed.
