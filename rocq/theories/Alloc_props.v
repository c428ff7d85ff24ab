(** C16: area memory (alloc.c). *)
From Verif Require Import Base Num_model SimplifyPath_model Alloc_model Alloc_spec Alloc_proof.

Definition nothing : owned := fun _ => [].

(** Every sequence of operations that keeps the contract runs without touching a
    dead block; in the malloc/free log no block is freed twice or handed out twice,
    and the blocks still live are exactly those the areas own, each with room for
    the link and the bytes asked for. *)
Theorem c16_areas : forall ops fuel, legal_run nothing ops -> length ops <= fuel ->
  exists h, run fuel start ops = Ok h /\
    (forall p, history (log h) p <> None) /\
    (forall p z, history (log h) p = Some (Some (16 + z)%N) <-> exists a, In (p, z) (srun ops nothing a)) /\
    (forall p n, history (log h) p = Some (Some n) -> exists a, In p (map fst (srun ops nothing a)) /\
       forall b, In p (map fst (srun ops nothing b)) -> b = a).
Proof.
  intros ops fuel Hl Hf. destruct (run_ok ops start nothing fuel inv_start Hl) as (h & E & I); [intros a; cbn; lia|].
  exists h. split; [exact E|]. destruct I as [I1 I2 I3 I4 I5]. split; [intros p; rewrite I5; discriminate|].
  split.
  - intros p z. rewrite I5. split.
    + intros H. assert (N : mem h p <> None) by (destruct (mem h p); [discriminate|cbn in H; congruence]).
      apply I4 in N. destruct N as [a Ha]. exists a. apply in_map_iff in Ha. destruct Ha as ([q y] & Eq & Ha). cbn in Eq. subst q.
      destruct (I1 a) as (last & S). destruct (seg_size _ _ _ _ _ _ _ _ S Ha) as (u & v & M). rewrite M in H. cbn [option_map n_size] in H.
      assert (y = z) by (assert (16 + y = 16 + z)%N by congruence; lia). subst y. exact Ha.
    + intros (a & Ha). destruct (I1 a) as (last & S). destruct (seg_size _ _ _ _ _ _ _ _ S Ha) as (u & v & M). rewrite M. reflexivity.
  - intros p n H. rewrite I5 in H. assert (N : mem h p <> None) by (destruct (mem h p); [discriminate|cbn in H; congruence]).
    apply I4 in N. destruct N as [a Ha]. exists a. split; [exact Ha|]. intros b Hb. eapply I3; eauto.
Qed.
Print Assumptions c16_areas.

(** Tearing an area down frees the blocks it owns, each once, and no others;
    freeing one block frees that block only. *)
Theorem c16_teardown : forall ops fuel, legal_run nothing ops -> length ops <= fuel ->
  exists h, run fuel start ops = Ok h /\
    (forall a, exists h', afreeall fuel h a = Ok h' /\ log h' = log h ++ map EvFree (map fst (srun ops nothing a)) /\ NoDup (map fst (srun ops nothing a))) /\
    (forall a p, In p (map fst (srun ops nothing a)) -> exists h', afree h (Some p) a = Ok h' /\ log h' = log h ++ [EvFree p]).
Proof.
  intros ops fuel Hl Hf. destruct (run_ok ops start nothing fuel inv_start Hl) as (h & E & I); [intros a; cbn; lia|].
  exists h. split; [exact E|]. split.
  - intros a. destruct (afreeall_ok h (srun ops nothing) a fuel I) as (h' & E' & _ & L').
    + pose proof (srun_len ops nothing a). cbn in *. lia.
    + exists h'. split; [exact E'|]. split; [exact L'|]. apply (i_nd h _ I).
  - intros a p Hp. destruct (afree_ok h _ a p I Hp) as (h' & E' & _ & L'). exists h'. auto.
Qed.
Print Assumptions c16_teardown.

(** An array allocation whose byte count, with the link, does not fit a size_t is
    refused whatever the two factors are; otherwise exactly the product is asked
    for. *)
Theorem c16_array_overflow : forall h p k z a m,
  ((k * z + 16 >= 2 ^ 64)%N -> areallocarray h p k z a m = Err) /\
  ((k * z + 16 < 2 ^ 64)%N -> forall h' q, areallocarray h p k z a m = Ok (h', q) -> exists l, log h' = log h ++ l ++ [EvMalloc q (k * z + 16)] /\
     (l = [] \/ exists o, p = Some o /\ l = [EvFree o])).
Proof.
  intros h p k z a m. rewrite array_size. split; intros H.
  - replace (fits (k * z)) with false; [reflexivity|]. unfold fits. lia.
  - assert (F : fits (k * z) = true) by (unfold fits; lia). rewrite F. destruct (fits_ok _ F) as [F1 F2].
    assert (SP : forall x f y x', set_prev x f y = Ok x' -> log x' = log x).
    { intros x f y x'. unfold set_prev, rdn. destruct (mem x f); cbn; [|discriminate]. intros Q. inversion Q. reflexivity. }
    assert (SN : forall x f y x', set_next x f y = Ok x' -> log x' = log x).
    { intros x f y x'. unfold set_next, rdn. destruct (mem x f); cbn; [|discriminate]. intros Q. inversion Q. reflexivity. }
    intros h' q E. rewrite (N.add_comm (k * z) 16). destruct p as [o|].
    + unfold aresize in E. rewrite F1, F2 in E. destruct (rdn h o) as [n| |]; cbn [bind] in E; try discriminate.
      destruct m as [m|]; [|discriminate]. exists [EvFree o]. split; [|right; exists o; auto].
      set (h0 := setm _ m _) in E.
      destruct (n_prev n) as [f|].
      * destruct (set_next h0 f (Some m)) as [h1| |] eqn:E1; cbn [bind] in E; try discriminate. apply SN in E1.
        destruct (n_next n) as [g|]; cbn [bind] in E.
        -- destruct (set_prev h1 g (Some m)) as [h2| |] eqn:E2; cbn [bind] in E; try discriminate. apply SP in E2.
           inversion E; subst. rewrite E2, E1. cbn. rewrite <- app_assoc. reflexivity.
        -- inversion E; subst. rewrite E1. cbn. rewrite <- app_assoc. reflexivity.
      * cbn [bind] in E. destruct (n_next n) as [g|]; cbn [bind] in E.
        -- destruct (set_prev (seth h0 a (Some m)) g (Some m)) as [h2| |] eqn:E2; cbn [bind] in E; try discriminate. apply SP in E2.
           inversion E; subst. rewrite E2. cbn. rewrite <- app_assoc. reflexivity.
        -- inversion E; subst. cbn. rewrite <- app_assoc. reflexivity.
    + unfold aresize, alloc in E. rewrite F1, F2 in E. destruct m as [m|]; [|discriminate]. exists []. split; [|left; reflexivity].
      cbn [event_ head setm] in E. destruct (head h a) as [f|].
      * match type of E with bind (set_prev ?x ?f ?y) _ = _ => destruct (set_prev x f y) as [h1| |] eqn:E1 end; cbn [bind] in E; try discriminate.
        apply SP in E1. inversion E; subst. cbn. rewrite E1. reflexivity.
      * cbn [bind] in E. inversion E; subst. reflexivity.
Qed.
Print Assumptions c16_array_overflow.

(** Two areas, reuse of a freed address, a block that moves and one that does not. *)
Definition ops_ex : list op :=
  [OAlloc 1 10 (Some 100); OAlloc 1 20 (Some 200); OAlloc 2 5 (Some 300); OAlloc 1 7 (Some 400);
   OResize 1 (Some 200) 4 8 (Some 500); OFree 1 (Some 100); OAlloc 2 9 (Some 100); OResize 2 (Some 300) 2 8 (Some 300);
   OResize 1 None (2 ^ 40) (2 ^ 40) (Some 600); OFreeAll 1]%N.
Example c16_example_legal : legal_run nothing ops_ex.
Proof.
  assert (K : forall s l p, (forall a, a <> 1 -> a <> 2 -> s a = []) -> s 1 ++ s 2 = l -> ~ In p (map fst l) -> ~ inuse s p).
  { intros s l p H0 E H [a Ha]. apply H. rewrite <- E, map_app, in_app_iff.
    destruct (Nat.eq_dec a 1) as [->|H1]; [auto|]. destruct (Nat.eq_dec a 2) as [->|H2]; [auto|]. rewrite H0 in Ha by assumption. destruct Ha. }
  cbn [ops_ex legal_run legal]. repeat split; try (left; reflexivity); try (right; eapply K); try (eapply K); try (vm_compute; reflexivity);
    try (intros [|[|[|a]]] H1 H2; try contradiction; vm_compute; reflexivity); try (vm_compute; intuition discriminate); try (vm_compute; tauto).
Qed.
Example c16_example :
  match run 20 start ops_ex with
  | Ok h => log h = [EvMalloc 100 26; EvMalloc 200 36; EvMalloc 300 21; EvMalloc 400 23; EvFree 200; EvMalloc 500 48;
      EvFree 100; EvMalloc 100 25; EvFree 300; EvMalloc 300 32; EvFree 400; EvFree 500]%N
  | _ => False
  end /\ srun ops_ex nothing 2 = [(100, 9); (300, 16)]%N /\ srun ops_ex nothing 1 = [].
Proof. vm_compute. auto. Qed.
