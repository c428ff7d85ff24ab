(** C61: u takes back the last change. *)
From Verif Require Import Base Vi_model Vi_spec Vi_frame Vi_keep Viundo_spec Viundo_proof.
Local Open Scope Z_scope.

(** [l] are the keys of a command that changes the line, [l'] what is typed for it in insert mode, [l''] movements after
    it: then u brings back the line and the cursor as they were when the command was given. *)
Theorem c61_undo k s l x l' l'' x'' m y s0 s1 s2 s3 : ready s -> changing l -> moving l'' ->
  run k (typed l x) s = Ok s0 -> inserted k l' s0 ->
  run k l' s0 = Ok s1 -> command_mode s1 ->
  run k (typed l'' x'') s1 = Ok s2 ->
  run k [Key "u" m y] s2 = Ok s3 ->
  text s3 = text s /\ cur (es s3) = cur (es s) /\ ready s3.
Proof.
  intros Hr Hc Hm H0 Hi H1 Hs1 H2 H3. pose proof (ph_ok _ _ _ (changing_W k l s x Hc Hr) H0) as [(V1 & V2 & V3) W].
  pose proof (ph_ok _ _ _ (inserted_run k l' s0 Hi (or_introl W)) H1) as U1.
  pose proof (ph_ok _ _ _ (moving_run k l'' Hm s1 x'' Hs1) H2) as [S2 U2]. destruct Hr as (_ & Hr1 & Hr2).
  rewrite U1 in U2. pose proof (u_run k m y s2 S2) as U. rewrite U2, V2, V3 in U. specialize (U Hr2).
  apply (ph_ok _ _ s3) in U; [|exact H3]. destruct U as (S3 & E3 & _). unfold text, ready. rewrite E3, V1, V2, V3. auto.
Qed.
Print Assumptions c61_undo.
(** u again brings the change back. *)
Theorem c61_undo_undo k s m1 x1 m2 x2 s' : ready s -> 0 <= cur (un s) -> cur (un s) < len (un s) \/ cur (un s) = 0 /\ len (un s) = 0 ->
  run k [Key "u" m1 x1; Key "u" m2 x2] s = Ok s' -> text s' = text s /\ cur (es s') = cur (es s).
Proof.
  intros (Hs & Hc & Hl) H0 Hu H. change [Key "u" m1 x1; Key "u" m2 x2] with ([Key "u" m1 x1] ++ [Key "u" m2 x2]) in H.
  assert (G : ph (run k ([Key "u" m1 x1] ++ [Key "u" m2 x2]) s) (fun s' => es s' = es s)).
  { eapply run_ph; [apply (u_run k m1 x1 s Hs Hu)|]. intros s1 (A & B & C). eapply ph_mono; [apply (u_run k m2 x2 s1 A)|].
    - rewrite C. exact Hl.
    - intros s2 (_ & D & _). congruence. }
  pose proof (ph_ok _ _ _ G H) as E. cbn beta in E. unfold text. rewrite E. auto.
Qed.
Print Assumptions c61_undo_undo.

Definition k1 := Cfg (Some DEL) (Some "021"%char) (Some "023"%char) false false false.
Definition keys (t : cstr) : list event := map (fun c => Key c false None) t.
Definition shown (r : res st) : option (cstr * Z) := match r with Ok s => Some (text s, cur (es s)) | _ => None end.
(** "echo one two", ESC, 0, then 2cw "print " ESC, l, u, u *)
Definition line1 : list event := Start (zeros LINE) [] 0 :: keys (L "echo one two" ++ [ESC; "0"%char]).
Example c61_example_before : shown (run k1 line1 st0) = Some (L "echo one two", 0).
Proof. vm_compute. reflexivity. Qed.
Example c61_example_changed : shown (run k1 (line1 ++ keys (L "c2w" ++ L "print" ++ [ESC; "h"%char])) st0) = Some (L "print two", 3).
Proof. vm_compute. reflexivity. Qed.
Example c61_example_undone : shown (run k1 (line1 ++ keys (L "c2w" ++ L "print" ++ [ESC; "h"%char; "u"%char])) st0) = Some (L "echo one two", 0).
Proof. vm_compute. reflexivity. Qed.
Example c61_example_twice : shown (run k1 (line1 ++ keys (L "c2w" ++ L "print" ++ [ESC; "h"%char; "u"%char; "u"%char])) st0) = Some (L "print two", 3).
Proof. vm_compute. reflexivity. Qed.
(** The hypotheses of [c61_undo] hold there. *)
Example c61_example_hypotheses : exists s s0 s1, run k1 line1 st0 = Ok s /\ ready s /\ changing (L "c2w") /\ moving (L "h") /\
  run k1 (typed (L "c2w") []) s = Ok s0 /\ inserted k1 (keys (L "print" ++ [ESC])) s0 /\ run k1 (keys (L "print" ++ [ESC])) s0 = Ok s1 /\ command_mode s1.
Proof.
  eexists. eexists. eexists. split; [vm_compute; reflexivity|]. split.
  { repeat split; vm_compute; intuition (try discriminate). }
  split. { apply (c_to [] (L "2") "c" (L "w")); [constructor|constructor; [reflexivity|constructor]|vm_compute; auto|constructor; vm_compute; auto 20]. }
  split. { apply (mv_one [] (L "h") []); [constructor| |constructor]. constructor. vm_compute. auto 20. }
  split; [vm_compute; reflexivity|]. split.
  - repeat (cbn [inserted keys map L app]; split; [repeat eexists|]; split; [vm_compute; reflexivity|]; intros ? H; vm_compute in H; injection H as <-). exact I.
  - split; [vm_compute; reflexivity|repeat split].
Qed.
