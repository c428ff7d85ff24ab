(** C15: name tables (table.c) behave as finite maps. *)
From Verif Require Import Base Num_model SimplifyPath_model Table_model Table_spec Table_proof.
From Coq Require Import Sorted.

(** Whatever the hash function, and for every sequence of up to 10^8 operations
    on a fresh table: no operation runs outside the array, probes for ever or
    fails, and afterwards a lookup finds a name exactly when it was defined
    after its last deletion (or hiding, define() of a running function), with the value of the last definition. *)
Theorem c15_finite_map : forall V (hf : cstr -> N) tsize ops,
  (7 * Z.of_nat tsize <= INT_MAX)%Z -> Forall (fun o => op_name V o <> []) ops -> (Z.of_nat (length ops) <= 100000000)%Z ->
  exists t0 t, ktinit V tsize hf = Ok t0 /\ run V hf t0 ops = Ok t /\
  forall n, exists r, ktsearch V t n hf = Ok r /\
    match frun V (fempty V) ops n with
    | Some v => exists i e, r = Some (i, e) /\ nth_error (slots V t) i = Some (Some e) /\ e_name V e = n /\ e_def V e = true /\ e_val V e = Some v
    | None => r = None
    end.
Proof.
  intros V hf tsize ops Hs Hn0 Hl. destruct (ktinit_ok V hf tsize Hs) as (t0 & E0 & I0 & R0 & U0).
  destruct (run_ok V hf ops t0 (fempty V) I0 R0 Hn0) as (t & E & I & R); [lia|].
  exists t0, t. split; [exact E0|]. split; [exact E|]. intros n.
  destruct (search_repr V hf t _ n I R) as (r & Er & H). exists r. split; [exact Er|].
  pose proof (ktsearch_spec V hf t n I) as K. rewrite Er in K.
  destruct (frun V (fempty V) ops n) as [v|]; [|exact H].
  destruct H as (i & e & -> & H1 & H2). destruct K as (K1 & K2 & _ & K3). exists i, e.
  split; [reflexivity|]. split; [rewrite <- K2; apply nth_error_slot, K1|auto].
Qed.
Print Assumptions c15_finite_map.

(** Walking and sorting after any such sequence: the walk lists each name at
    most once and exactly the defined ones; the sorted list is strictly
    increasing and has all of them. *)
Theorem c15_listing : forall V (hf : cstr -> N) tsize ops,
  (7 * Z.of_nat tsize <= INT_MAX)%Z -> Forall (fun o => op_name V o <> []) ops -> (Z.of_nat (length ops) <= 100000000)%Z ->
  exists t0 t, ktinit V tsize hf = Ok t0 /\ run V hf t0 ops = Ok t /\
  NoDup (map (e_name V) (walk V t)) /\
  StronglySorted str_lt (map (e_name V) (ktsort V t)) /\
  (forall n v, frun V (fempty V) ops n = Some v <-> exists e, In e (walk V t) /\ e_name V e = n /\ e_val V e = Some v) /\
  (forall n v, frun V (fempty V) ops n = Some v <-> exists e, In e (ktsort V t) /\ e_def V e = true /\ e_name V e = n /\ e_val V e = Some v).
Proof.
  intros V hf tsize ops Hs Hn0 Hl. destruct (ktinit_ok V hf tsize Hs) as (t0 & E0 & I0 & R0 & U0).
  destruct (run_ok V hf ops t0 (fempty V) I0 R0 Hn0) as (t & E & I & R); [lia|].
  exists t0, t. split; [exact E0|]. split; [exact E|]. split; [apply (walk_nodup V hf), I|].
  destruct (ktsort_ok V hf t I) as [S1 S2].
  assert (HM : forall n v, frun V (fempty V) ops n = Some v <-> exists e, has V (slots V t) e /\ e_def V e = true /\ e_name V e = n /\ e_val V e = Some v).
  { intros n v. specialize (R n). split.
    - intros H. rewrite H in R. destruct R as (e & H1 & H2 & H3 & H4). exists e. auto.
    - intros (e & H1 & H2 & H3 & H4). destruct (frun V (fempty V) ops n) as [w|].
      + destruct R as (y & (j & Hj & Ej) & K2 & K3 & K4). destruct H1 as (i & Hi & Ei).
        assert (Q : i = j) by (apply (inv_uniq V hf t I i j e y Hi Hj Ei Ej); [congruence|]; apply (inv_named V hf t I i e Hi Ei); rewrite H2; reflexivity). rewrite Q, Ej in Ei. congruence.
      + rewrite (R e H1 H3) in H2. discriminate. }
  split; [|split].
  - clear - S1. induction S1 as [|e l H IH F]; cbn [map]; constructor; auto. rewrite Forall_map. exact F.
  - intros n v. rewrite HM. split; intros (e & H).
    + exists e. rewrite walk_In. tauto.
    + exists e. destruct H as (H & H'). apply walk_In in H. tauto.
  - intros n v. rewrite HM. split; intros (e & H).
    + exists e. split; [apply S2|]; tauto.
    + exists e. destruct H as (H & H'). apply S2 in H. tauto.
Qed.
Print Assumptions c15_listing.

(** Growing: from any state an operation sequence reaches, doubling the array
    keeps exactly the defined entries and frees exactly the undefined ones not in
    use, so nothing reachable is freed. *)
Theorem c15_growth : forall V (hf : cstr -> N) tsize ops,
  (7 * Z.of_nat tsize <= INT_MAX)%Z -> Forall (fun o => op_name V o <> []) ops -> (Z.of_nat (length ops) <= 100000000)%Z ->
  exists t0 t, ktinit V tsize hf = Ok t0 /\ run V hf t0 ops = Ok t /\
  forall nsize, size V t <= nsize -> 0 < nsize -> (7 * Z.of_nat nsize <= INT_MAX)%Z ->
  exists t' freed, texpand V t nsize hf = Ok (t', freed) /\ size V t' = nsize /\
    (forall e, In (Some e) (slots V t') <-> In (Some e) (slots V t) /\ e_def V e = true) /\
    (forall e, In e freed <-> In (Some e) (slots V t) /\ e_def V e = false /\ e_inuse V e = false).
Proof.
  intros V hf tsize ops Hs Hn0 Hl. destruct (ktinit_ok V hf tsize Hs) as (t0 & E0 & I0 & R0 & U0).
  destruct (run_ok V hf ops t0 (fempty V) I0 R0 Hn0) as (t & E & I & R); [lia|].
  exists t0, t. split; [exact E0|]. split; [exact E|]. intros nsize Hle Hp Hm.
  destruct (texpand_ok V hf t nsize I Hp Hm) as (t' & fr & X & I' & S' & _ & A & B).
  - pose proof (inv_free V hf t I) as If. pose proof (inv_nonneg V hf t I) as In.
    assert (7 * Z.of_nat (size V t) / 10 <= 7 * Z.of_nat nsize / 10)%Z by (apply Z.div_le_mono; lia). lia.
  - exists t', fr. split; [exact X|]. split; [exact S'|]. split; intros e.
    + rewrite <- !has_In. apply A.
    + rewrite <- has_In. apply B.
Qed.
Print Assumptions c15_growth.

(** Entering a name again after deleting it hands out the dead entry with its
    old value still in it, not a fresh one. *)
Theorem c15_fresh_entry_refuted : exists (ops : list (op nat)) n,
  match run nat hash (Table [] 0) ops with
  | Ok t => frun nat (fempty nat) ops n = None /\
      match ktenter nat t n hash with Ok (_, _, e) => e_def nat e = false /\ e_val nat e = Some 7 | _ => False end
  | _ => False
  end.
Proof. exists [OpDefine (L "x") 7; OpDelete (L "x")], (L "x"). vm_compute. auto. Qed.
Print Assumptions c15_fresh_entry_refuted.

(** The size computation in texpand overflows an int before the "too many vars"
    guard of ktenter stops the growth: sizes the guard lets through. *)
Theorem c15_size_overflow_refuted : exists nsize : Z,
  (nsize / 2 <= INT_MAX / 2)%Z /\ (exists k, nsize = 2 ^ k)%Z /\
  forall V (t : table V) hf n, Z.of_nat n = nsize -> texpand V t n hf = UB.
Proof.
  exists 536870912%Z. split; [vm_compute; discriminate|]. split; [exists 29%Z; reflexivity|].
  intros V t hf n Hn. unfold texpand. rewrite Hn. reflexivity.
Qed.
Print Assumptions c15_size_overflow_refuted.

(** Collisions, growth and tombstones together: with a constant hash, 8 slots,
    ten names, one deleted and redefined. *)
Definition ops_ex : list (op nat) :=
  [OpDefine (L "a") 1; OpDefine (L "b") 2; OpDefine (L "c") 3; OpDelete (L "b"); OpDefine (L "d") 4;
   OpEnter (L "zz"); OpDefine (L "e") 5; OpDefine (L "f") 6; OpDefine (L "g") 7; OpDefine (L "b") 8; OpDefine (L "a") 9].
Example c15_example :
  match run nat (fun _ => 3%N) (Table [] 0) ops_ex with
  | Ok t => size nat t = 16 /\ map (fun e => (e_name nat e, e_val nat e)) (ktsort nat t) =
      [(L "a", Some 9); (L "b", Some 8); (L "c", Some 3); (L "d", Some 4); (L "e", Some 5); (L "f", Some 6); (L "g", Some 7)]
      /\ match ktsearch nat t (L "zz") (fun _ => 3%N) with Ok None => True | _ => False end
  | _ => False
  end.
Proof. vm_compute. auto. Qed.
(** a function redefined while running: hidden entry in use survives growth *)
Example c15_inuse_example :
  match run nat (fun _ => 3%N) (Table [] 0) [OpDefine (L "f") 1; OpUse (L "f") true; OpHide (L "f"); OpDefine (L "f") 2; OpEnter (L "g")] with
  | Ok t => match texpand nat t 16 (fun _ => 3%N) with
            | Ok (t', freed) => map (e_name nat) freed = [L "g"] /\ map (fun e => (e_name nat e, e_val nat e)) (walk nat t') = [(L "f", Some 2)]
            | _ => False end
  | _ => False
  end.
Proof. vm_compute. auto. Qed.
Example c15_hash_example : (hash (L "PATH"), hash (L "HOME")) = (2948589%N, 2676105%N).
Proof. vm_compute. reflexivity. Qed.
