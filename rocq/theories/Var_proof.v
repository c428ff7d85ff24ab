From Verif Require Import Base Num_model SimplifyPath_model Printf_model Justify_model Arith_model Var_model Var_spec.
Local Open Scope Z_scope.

(** ** Flags *)
Definition bit (m : N) : Prop := exists i, m = N.pow 2 i.
Lemma any_bit f i : any f (N.pow 2 i) = N.testbit f i.
Proof.
  unfold any. destruct (N.testbit f i) eqn:E.
  - apply negb_true_iff, N.eqb_neq. intros H. assert (N.testbit (N.land f (2 ^ i)) i = false) by (rewrite H; apply N.bits_0).
    rewrite N.land_spec, E, N.pow2_bits_true in H0. discriminate.
  - apply negb_false_iff, N.eqb_eq. apply N.bits_inj_0. intros j. rewrite N.land_spec.
    destruct (N.eq_dec i j) as [->|Hn]; [rewrite E; reflexivity|rewrite N.pow2_bits_false by assumption; apply andb_false_r].
Qed.
Lemma any_lor a b m : any (N.lor a b) m = any a m || any b m.
Proof.
  unfold any. rewrite N.land_lor_distr_l.
  destruct (N.eqb_spec (N.land a m) 0) as [E|E], (N.eqb_spec (N.land b m) 0) as [F|F]; cbn [negb orb].
  - rewrite E, F. reflexivity.
  - apply negb_true_iff, N.eqb_neq. intros H. apply N.lor_eq_0_iff in H. tauto.
  - apply negb_true_iff, N.eqb_neq. intros H. apply N.lor_eq_0_iff in H. tauto.
  - apply negb_true_iff, N.eqb_neq. intros H. apply N.lor_eq_0_iff in H. tauto.
Qed.
Lemma any_comm a b : any a b = any b a.
Proof. unfold any. rewrite N.land_comm. reflexivity. Qed.
Lemma any_lor_r f a b : any f (N.lor a b) = any f a || any f b.
Proof. rewrite any_comm, any_lor, (any_comm a), (any_comm b). reflexivity. Qed.
Lemma any_ldiff a b m : bit m -> any (N.ldiff a b) m = any a m && negb (any b m).
Proof. intros [i ->]. rewrite !any_bit. apply N.ldiff_spec. Qed.
Lemma any_land a b m : bit m -> any (N.land a b) m = any a m && any b m.
Proof. intros [i ->]. rewrite !any_bit. apply N.land_spec. Qed.
Lemma any_0 m : any 0 m = false. Proof. unfold any. rewrite N.land_0_l. reflexivity. Qed.
Lemma any_ldiff0 a b m : N.ldiff a b = 0%N -> bit m -> any b m = false -> any a m = false.
Proof.
  intros H [i ->]. rewrite !any_bit. intros Hb. destruct (N.testbit a i) eqn:E; [|reflexivity].
  assert (N.testbit (N.ldiff a b) i = false) by (rewrite H; apply N.bits_0). rewrite N.ldiff_spec, E, Hb in H0. discriminate.
Qed.

Lemma b_ALLOC : bit ALLOC. Proof. now exists 0%N. Qed.
Lemma b_DEFINED : bit DEFINED. Proof. now exists 1%N. Qed.
Lemma b_ISSET : bit ISSET. Proof. now exists 2%N. Qed.
Lemma b_EXPORT : bit EXPORT. Proof. now exists 3%N. Qed.
Lemma b_INTEGER : bit INTEGER. Proof. now exists 9%N. Qed.
Lemma b_RDONLY : bit RDONLY. Proof. now exists 10%N. Qed.
Lemma b_LOCAL : bit LOCAL. Proof. now exists 11%N. Qed.
Lemma b_ARRAY : bit ARRAY. Proof. now exists 13%N. Qed.
Lemma b_LJUST : bit LJUST. Proof. now exists 14%N. Qed.
Lemma b_RJUST : bit RJUST. Proof. now exists 15%N. Qed.
Lemma b_ZEROFIL : bit ZEROFIL. Proof. now exists 16%N. Qed.
Lemma b_LCASEV : bit LCASEV. Proof. now exists 17%N. Qed.
Lemma b_UCASEV_AL : bit UCASEV_AL. Proof. now exists 18%N. Qed.
Lemma b_INT_U : bit INT_U. Proof. now exists 19%N. Qed.
Global Hint Resolve b_ALLOC b_DEFINED b_ISSET b_EXPORT b_INTEGER b_RDONLY b_LOCAL b_ARRAY b_LJUST b_RJUST b_ZEROFIL b_LCASEV
  b_UCASEV_AL b_INT_U : bits.

(** simplify tests of single bits of flag expressions *)
Ltac ground := repeat match goal with
  | |- context [any ?a ?b] => let v := eval vm_compute in (any a b) in
       match v with true => change (any a b) with true | false => change (any a b) with false end
  end.
Ltac fl := unfold on; cbn [t_flag t_type t_val t_index t_field set_flag set_type set_val set_field set_index define_t];
  repeat first [ rewrite any_lor | rewrite any_lor_r | rewrite any_ldiff by auto with bits | rewrite any_land by auto with bits | rewrite any_0 ];
  ground; cbn [orb andb negb]; rewrite ?orb_false_r, ?orb_true_r, ?andb_true_r, ?andb_false_r.

(** ** Tables and states *)
Lemma look_store b n e m : look (store_ b n e) m = if str_eqb n m then Some e else look b m.
Proof.
  induction b as [|[x y] b IH]; cbn [store_ look].
  - destruct (str_eqb_spec n m); reflexivity.
  - destruct (str_eqb_spec x n) as [->|Hn]; cbn [look].
    + destruct (str_eqb_spec n m); reflexivity.
    + rewrite IH. destruct (str_eqb_spec x m), (str_eqb_spec n m); congruence.
Qed.
Lemma nth_setnth {A} k (x : A) l j : nth_error (setnth k x l) j = if (j =? k)%nat then (match nth_error l k with Some _ => Some x | None => None end) else nth_error l j.
Proof.
  revert k j. induction l as [|y l IH]; intros [|k] [|j]; cbn [setnth nth_error Nat.eqb]; try reflexivity.
  - destruct (j =? k)%nat; reflexivity.
  - apply IH.
Qed.
Lemma length_setnth {A} k (x : A) l : length (setnth k x l) = length l.
Proof. revert k. induction l as [|y l IH]; intros [|k]; cbn; congruence. Qed.
Lemma length_put st k n e : length (put st k n e) = length st.
Proof. unfold put. destruct (nth_error st k); [apply length_setnth|reflexivity]. Qed.
Lemma entry_put st k n e j m : entry (put st k n e) j m =
  if (j =? k)%nat && str_eqb n m && (k <? length st)%nat then Some e else entry st j m.
Proof.
  unfold entry, put. destruct (nth_error st k) as [b|] eqn:E.
  - assert (k < length st)%nat as Hk by (apply nth_error_Some; congruence).
    rewrite nth_setnth, E. destruct (Nat.eqb_spec j k) as [->|Hj]; [|reflexivity].
    rewrite look_store, E. apply Nat.ltb_lt in Hk. rewrite Hk. cbn [andb]. rewrite andb_true_r. reflexivity.
  - apply nth_error_None in E. apply Nat.ltb_ge in E. rewrite E, andb_false_r. reflexivity.
Qed.
Lemma entry_some st k n e : entry st k n = Some e -> (k < length st)%nat.
Proof. unfold entry. intros H. apply nth_error_Some. destruct (nth_error st k); congruence. Qed.
Lemma entry_put_same st k n e : (k < length st)%nat -> entry (put st k n e) k n = Some e.
Proof. intros H. rewrite entry_put, Nat.eqb_refl, str_eqb_refl. apply Nat.ltb_lt in H. rewrite H. reflexivity. Qed.
Lemma entry_put_other st k n e j m : (j, m) <> (k, n) -> entry (put st k n e) j m = entry st j m.
Proof.
  intros H. rewrite entry_put. destruct (Nat.eqb_spec j k) as [->|]; [|reflexivity].
  destruct (str_eqb_spec n m) as [->|]; [congruence|reflexivity].
Qed.
Lemma length_assign st r t : length (assign_t st r t) = length st.
Proof. destruct r; cbn [assign_t]; [reflexivity|]. destruct (entry st k n); [apply length_put|reflexivity]. Qed.

Lemma find_elem_put l i t j : t_index t = i -> find_elem (put_elem l i t) j =
  if (i =? j) then (match find_elem l i with Some _ => Some t | None => None end) else find_elem l j.
Proof.
  intros Ht. induction l as [|x l IH]; cbn [put_elem find_elem].
  - destruct (i =? j); reflexivity.
  - destruct (Z.eqb_spec (t_index x) i) as [Hx|Hx]; cbn [find_elem].
    + rewrite Ht. destruct (Z.eqb_spec i j) as [->|Hj]; [reflexivity|].
      destruct (Z.eqb_spec (t_index x) j); [congruence|reflexivity].
    + rewrite IH. destruct (Z.eqb_spec (t_index x) j), (Z.eqb_spec i j); congruence.
Qed.
Lemma find_elem_index l i t : find_elem l i = Some t -> t_index t = i.
Proof. induction l as [|x l IH]; cbn; [discriminate|]. destruct (Z.eqb_spec (t_index x) i); [congruence|assumption]. Qed.
Lemma get_put_t e i t t' j : get_t e i = Some t -> t_index t' = t_index t ->
  get_t (put_t e i t') j = if i =? j then Some t' else get_t e j.
Proof.
  unfold get_t, put_t. destruct (Z.eqb_spec i 0) as [->|Hi]; cbn [e_base e_elems].
  - intros _ _. destruct (Z.eqb_spec j 0) as [->|]; [reflexivity|]. destruct (Z.eqb_spec 0 j); [congruence|reflexivity].
  - intros H Hx. pose proof (find_elem_index _ _ _ H). destruct (Z.eqb_spec j 0) as [->|Hj].
    + destruct (Z.eqb_spec i 0); [congruence|reflexivity].
    + rewrite find_elem_put by congruence. rewrite H. reflexivity.
Qed.
Lemma put_elem_increasing l i t : t_index t = i -> forall lo, increasing lo l -> increasing lo (put_elem l i t).
Proof.
  intros Ht. induction l as [|x l IH]; cbn [put_elem increasing]; [auto|]. intros lo [H1 H2].
  destruct (Z.eqb_spec (t_index x) i) as [E|E]; cbn [increasing]; [rewrite Ht, <- E; auto|auto].
Qed.
Lemma put_elem_nil l i t : put_elem l i t = [] -> l = [].
Proof. destruct l as [|x l]; cbn; [auto|]. destruct (t_index x =? i); discriminate. Qed.
Lemma as_ins_increasing vp v l : forall lo, lo < v -> increasing lo l -> increasing lo (as_ins vp v l).
Proof.
  induction l as [|c l IH]; cbn [as_ins increasing as_new t_index]; [auto|]. intros lo Hlo [H1 H2].
  destruct (Z.ltb_spec (t_index c) v); cbn [increasing]; [auto|].
  destruct (Z.eqb_spec (t_index c) v) as [<-|]; cbn [increasing as_new t_index].
  - destruct (on c ISSET); cbn [t_index]; auto.
  - repeat split; auto; lia.
Qed.
(** the elements after arraysearch *)
Lemma find_as_ins vp v l : forall lo, increasing lo l -> forall j, find_elem (as_ins vp v l) j =
  if v =? j then Some (match find_elem l j with
                       | Some c => if on c ISSET then c else as_new vp v (t_val c)
                       | None => as_new vp v VNone end)
  else find_elem l j.
Proof.
  induction l as [|c l IH]; intros lo H j; cbn [as_ins find_elem as_new t_index]; [reflexivity|].
  destruct H as [H1 H2].
  destruct (Z.ltb_spec (t_index c) v); cbn [find_elem].
  - rewrite (IH _ H2). destruct (Z.eqb_spec (t_index c) j), (Z.eqb_spec v j); try lia; reflexivity.
  - destruct (Z.eqb_spec (t_index c) v) as [E|E]; cbn [find_elem as_new t_index].
    + assert (t_index (if on c ISSET then c else as_new vp v (t_val c)) = v) as -> by (destruct (on c ISSET); cbn; congruence).
      rewrite E. destruct (v =? j); reflexivity.
    + destruct (Z.eqb_spec v j) as [->|]; [|reflexivity].
      destruct (Z.eqb_spec (t_index c) j); [congruence|].
      assert (forall l lo, t_index c < j \/ j <= lo -> increasing lo l -> j <= lo -> find_elem l j = None) as Hn.
      { clear. induction l as [|x l IH]; intros lo Hd; cbn; [reflexivity|]. intros [A B] C.
        destruct (Z.eqb_spec (t_index x) j); [lia|]. apply (IH (t_index x)); auto; lia. }
      rewrite (Hn l (t_index c)) by (auto; lia). reflexivity.
Qed.

(** ** The innermost block *)
Definition undef_at (st : vars) (k : nat) (n : cstr) : Prop := forall e, entry st k n = Some e -> on (e_base e) DEFINED = false.
Definition resolved (st : vars) (k : nat) (n : cstr) : Prop := (k < length st)%nat /\ forall j, (j < k)%nat -> undef_at st j n.
Definition located (st : vars) (k : nat) (n : cstr) : Prop :=
  resolved st k n /\ exists e, entry st k n = Some e /\ on (e_base e) DEFINED = true.

Lemma entry_cons b st k n : entry (b :: st) (S k) n = entry st k n.
Proof. reflexivity. Qed.
Lemma find_block_some st n k : find_block st n = Some k <-> located st k n.
Proof.
  revert k. induction st as [|b st IH]; intros k; cbn [find_block].
  - split; [discriminate|]. intros [[H _] _]. cbn in H. lia.
  - unfold ktsearch. destruct (look b n) as [e|] eqn:E; [destruct (on (e_base e) DEFINED) eqn:D|].
    + split.
      * intros [= <-]. split; [split; [cbn; lia|intros; lia]|]. exists e. split; auto.
      * intros [[H1 H2] _]. destruct k; [reflexivity|]. exfalso.
        assert (on (e_base e) DEFINED = false) by (apply (H2 O); [lia|exact E]). congruence.
    + destruct k as [|k].
      * split; [destruct (find_block st n); discriminate|]. intros [_ (x & Hx & Hd)]. cbn in Hx. congruence.
      * specialize (IH k). transitivity (find_block st n = Some k).
        { destruct (find_block st n); cbn; split; congruence. }
        rewrite IH. split; intros [[H1 H2] (x & Hx & Hd)].
        -- split; [split; [cbn; lia|]|exists x; auto]. intros [|j] Hj y; [cbn; congruence|]. apply (H2 j). lia.
        -- split; [split; [cbn in H1; lia|]|exists x; auto]. intros j Hj. apply (H2 (S j)). lia.
    + destruct k as [|k].
      * split; [destruct (find_block st n); discriminate|]. intros [_ (x & Hx & Hd)]. cbn in Hx. congruence.
      * specialize (IH k). transitivity (find_block st n = Some k).
        { destruct (find_block st n); cbn; split; congruence. }
        rewrite IH. split; intros [[H1 H2] (x & Hx & Hd)].
        -- split; [split; [cbn; lia|]|exists x; auto]. intros [|j] Hj y; [cbn; congruence|]. apply (H2 j). lia.
        -- split; [split; [cbn in H1; lia|]|exists x; auto]. intros j Hj. apply (H2 (S j)). lia.
Qed.
Lemma find_block_none st n : find_block st n = None <-> forall j, undef_at st j n.
Proof.
  induction st as [|b st IH]; cbn [find_block].
  - split; [|auto]. intros _ j e. unfold entry. destruct j; discriminate.
  - unfold ktsearch. destruct (look b n) as [e|] eqn:E; [destruct (on (e_base e) DEFINED) eqn:D|].
    + split; [discriminate|]. intros H. specialize (H O e E). congruence.
    + transitivity (find_block st n = None); [destruct (find_block st n); cbn; split; congruence|]. rewrite IH. split.
      * intros H [|j]; [intros x Hx; cbn in Hx; congruence|apply H].
      * intros H j. apply (H (S j)).
    + transitivity (find_block st n = None); [destruct (find_block st n); cbn; split; congruence|]. rewrite IH. split.
      * intros H [|j]; [intros x Hx; cbn in Hx; congruence|apply H].
      * intros H j. apply (H (S j)).
Qed.

(** ** Lookups *)
Lemma arraysearch_defined e v : on (e_base (arraysearch e v)) DEFINED = true.
Proof. unfold arraysearch. cbn [e_base]. fl. reflexivity. Qed.
Lemma put_t_defined e v t : get_t e v = Some t -> on (e_base e) DEFINED = true -> on (e_base (put_t e v (define_t t))) DEFINED = true.
Proof.
  unfold get_t, put_t. destruct (v =? 0); cbn [e_base]; [|auto]. intros [= <-] H. unfold on in *.
  cbn [t_flag set_flag define_t]. rewrite any_lor, H. reflexivity.
Qed.
Definition subok (sub : option Z) (n : cstr) : Prop := match sub with Some v => 0 <= v /\ ~ In "["%char n | None => True end.
(** every lookup puts one entry, at a resolved place *)
Inductive looked (st : vars) : nat -> cstr -> vars -> Prop :=
| lk_same k n e : located st k n -> entry st k n = Some e -> looked st k n st
| lk_array k n e v : located st k n -> entry st k n = Some e -> subok (Some v) n -> looked st k n (put st k n (arraysearch e v))
| lk_new k n e v : k = pred (length st) -> st <> [] -> subok v n -> (forall j, undef_at st j n) ->
    e = match entry st k n with Some e => e | None => fresh end ->
    looked st k n (put st k n (match v with Some v => (fun e => match get_t e v with Some t => put_t e v (define_t t) | None => e end) (arraysearch e v)
                                          | None => Ent (define_t (e_base e)) (e_elems e) end)).
Lemma ktenter_entry st k n b : nth_error st k = Some b -> ktenter b n = match entry st k n with Some e => e | None => fresh end.
Proof. intros H. unfold ktenter, entry. rewrite H. reflexivity. Qed.
Lemma global_at_looked st n sub r st' : st <> [] -> subok sub n -> global_at st n sub = (r, st') ->
  match r with RTemp => st' = st | RVar k m i => m = n /\ looked st k n st' /\ i = match sub with Some v => v | None => 0 end end.
Proof.
  unfold global_at. intros Hne Hnb. destruct n as [|c n']; [intros [= <- <-]; reflexivity|].
  destruct (letter c); [|intros [= <- <-]; reflexivity]. set (n := c :: n') in *.
  destruct (find_block st n) as [k|] eqn:F.
  - apply find_block_some in F. destruct F as [F (e & He & Hd)]. rewrite He.
    destruct sub as [v|]; intros [= <- <-]; (split; [reflexivity|split; [|reflexivity]]).
    + apply lk_array; [split; eauto|assumption|exact Hnb].
    + apply (lk_same _ _ _ e); [split; eauto|assumption].
  - pose proof (proj1 (find_block_none _ _) F) as G.
    destruct (nth_error st (pred (length st))) as [b|] eqn:E.
    2: { apply nth_error_None in E. destruct st; cbn in *; [congruence|lia]. }
    rewrite (ktenter_entry _ _ _ _ E).
    destruct sub as [v|]; intros [= <- <-]; (split; [reflexivity|split; [|reflexivity]]).
    + apply (lk_new st _ n _ (Some v)); auto.
    + apply (lk_new st _ n _ None); auto.
Qed.
Lemma looked_located st k n st' : looked st k n st' -> located st' k n /\ length st' = length st.
Proof.
  intros H. destruct H as [k n e Hl He|k n e v Hl He Hb|k n e v Hk Hne Hb Hu He].
  - auto.
  - rewrite length_put. split; [|reflexivity]. destruct Hl as [[H1 H2] _]. split; [split|].
    + rewrite length_put. assumption.
    + intros j Hj x Hx. rewrite entry_put_other in Hx by (intros [= ->]; lia). apply (H2 j Hj _ Hx).
    + eexists. rewrite entry_put_same by assumption. split; [reflexivity|apply arraysearch_defined].
  - rewrite length_put. split; [|reflexivity].
    assert (k < length st)%nat as Hlt by (destruct st; [congruence|cbn in *; lia]). split; [split|].
    + rewrite length_put. assumption.
    + intros j Hj x Hx. rewrite entry_put_other in Hx by (intros [= ->]; lia). apply (Hu j _ Hx).
    + eexists. rewrite entry_put_same by assumption. split; [reflexivity|].
      destruct v as [v|].
      * cbn beta. destruct (get_t (arraysearch e v) v) eqn:G; [apply put_t_defined; auto|]; apply arraysearch_defined.
      * cbn [e_base]. fl. reflexivity.
Qed.

Lemma get_arraysearch_defined e v : increasing 0 (e_elems e) -> exists t, get_t (arraysearch e v) v = Some t.
Proof.
  intros H. unfold get_t, arraysearch. cbn [e_base e_elems]. destruct (v =? 0); [eauto|].
  rewrite (find_as_ins _ _ _ 0) by assumption. rewrite Z.eqb_refl. eauto.
Qed.

(** ** Writing one element *)
Definition wrel (t t' : tbl) : Prop :=
  t_index t' = t_index t /\ on t' ARRAY = on t ARRAY /\ on t' DEFINED = on t DEFINED.
Lemma wrel_refl t : wrel t t. Proof. repeat split. Qed.
Lemma wrel_trans a b c : wrel a b -> wrel b c -> wrel a c.
Proof. unfold wrel. intuition congruence. Qed.
Lemma wrel_flag t f : any f ARRAY = on t ARRAY -> any f DEFINED = on t DEFINED -> wrel t (set_flag t f).
Proof. intros A B. repeat split; assumption. Qed.
Lemma wrel_type t y : wrel t (set_type t y). Proof. repeat split. Qed.
Lemma wrel_val t y : wrel t (set_val t y). Proof. repeat split. Qed.
Lemma wrel_field t y : wrel t (set_field t y). Proof. repeat split. Qed.
Lemma wrel_export n t s : wrel t (export n t s).
Proof. unfold wrel, export. split; [reflexivity|]. split; fl; reflexivity. Qed.
Lemma wrel_setstr n t s t' : setstr_string n t s = Ok t' -> wrel t t'.
Proof.
  unfold setstr_string. set (t1 := set_type _ 0). assert (wrel t t1) as H1.
  { unfold t1. eapply wrel_trans; [|apply wrel_type]. apply wrel_flag; fl; reflexivity. }
  clearbody t1. destruct (if on t1 _ then _ else _) as [[s' w]| |]; cbn [bind]; try discriminate. intros H.
  eapply wrel_trans; [exact H1|]. eapply wrel_trans; [apply (wrel_field t1 w)|]. revert H.
  set (t2 := set_field t1 w). clearbody t2. intros [= <-]. eapply wrel_trans.
  2: { apply wrel_flag; fl; reflexivity. }
  destruct (on t2 EXPORT); [apply wrel_export|]. eapply wrel_trans; [|apply wrel_val]. apply wrel_flag; fl; reflexivity.
Qed.
Lemma wrel_setint_v t z b : wrel t (setint_v t z b).
Proof.
  unfold setint_v. set (t1 := if _ && _ then _ else t). assert (wrel t t1) as H1.
  { unfold t1. destruct (_ && _); [apply wrel_flag; fl; reflexivity|apply wrel_refl]. }
  eapply wrel_trans; [exact H1|]. eapply wrel_trans; [apply (wrel_val t1 (VInt z))|].
  set (t2 := set_val t1 (VInt z)). eapply wrel_trans with (b := if t_type t2 =? 0 then set_type t2 b else t2).
  { destruct (_ =? _); [apply wrel_type|apply wrel_refl]. }
  apply wrel_flag; fl; reflexivity.
Qed.
Lemma wrel_zap t : wrel t (zap t).
Proof.
  unfold zap. destruct (on t INTEGER); [apply wrel_flag; fl; reflexivity|].
  eapply wrel_trans; [|apply wrel_type]. apply wrel_flag; fl; reflexivity.
Qed.
Definition maskok (m : N) : Prop := any m ARRAY = false /\ any m DEFINED = false.
Lemma wrel_retype t set clr f b tg fk : maskok set -> maskok clr -> wrel t (retype t set clr f b tg fk).
Proof.
  intros [S1 S2] [C1 C2]. unfold retype.
  set (t1 := if fk then _ else t). assert (wrel t t1) as H1.
  { unfold t1. destruct fk; [apply wrel_flag; fl; reflexivity|apply wrel_refl]. }
  set (t2 := if negb (on t1 INTEGER) && _ then _ else t1). assert (wrel t1 t2) as H2.
  { unfold t2. destruct (_ && _); [|apply wrel_refl]. eapply wrel_trans; [|apply wrel_type]. apply wrel_flag; fl; reflexivity. }
  set (t3 := set_flag t2 _). assert (wrel t2 t3) as H3.
  { unfold t3. apply wrel_flag; fl; rewrite ?S1, ?S2, ?C1, ?C2; cbn; rewrite ?orb_false_r, ?andb_true_r; reflexivity. }
  set (t4 := if any set INTEGER && _ && _ then _ else t3). assert (wrel t3 t4) as H4.
  { unfold t4. destruct (_ && _ && _); [apply wrel_type|apply wrel_refl]. }
  eapply wrel_trans; [exact H1|]. eapply wrel_trans; [exact H2|]. eapply wrel_trans; [exact H3|]. eapply wrel_trans; [exact H4|].
  clearbody t4. destruct (any set (N.lor LJUST _)); [apply wrel_field|apply wrel_refl].
Qed.

Lemma deref_some st r t : deref st r = Some t -> exists k n i e, r = RVar k n i /\ entry st k n = Some e /\ get_t e i = Some t /\
  forall t', assign_t st r t' = put st k n (put_t e i t').
Proof.
  destruct r as [|k n i]; cbn [deref]; [discriminate|]. destruct (entry st k n) as [e|] eqn:E; [|discriminate].
  intros H. exists k, n, i, e. repeat split; auto. intros t'. cbn [assign_t]. rewrite E. reflexivity.
Qed.

(** ** Names *)
Lemma span_spec {p : char -> bool} s : s = fst (span p s) ++ snd (span p s) /\ forallb p (fst (span p s)) = true /\
  match snd (span p s) with c :: _ => p c = false | [] => True end.
Proof.
  induction s as [|c s IH]; cbn [span]; [repeat split|]. destruct (p c) eqn:E; [|cbn; rewrite E; auto].
  destruct (span p s) as [a b]. cbn [fst snd] in *. destruct IH as (A & B & C). cbn. rewrite E, B. repeat split; auto. congruence.
Qed.
Lemma letnum_no_bracket c : letnum c = true -> c <> "["%char.
Proof. intros H ->. discriminate. Qed.
Lemma letnum_forall_no_bracket s : forallb letnum s = true -> ~ In "["%char s.
Proof. intros H Hi. rewrite forallb_forall in H. specialize (H _ Hi). discriminate. Qed.
Lemma arrayname_app a b : ~ In "["%char a -> arrayname (a ++ "["%char :: b) = a.
Proof.
  induction a as [|c a IH]; intros H; cbn [app arrayname].
  - reflexivity.
  - destruct (ceq c "[") eqn:E; [apply ceq_true in E; subst; exfalso; apply H; left; reflexivity|]. rewrite IH; [reflexivity|]. intros X. apply H. right. exact X.
Qed.
Lemma arrayname_id a : ~ In "["%char a -> arrayname a = a.
Proof.
  induction a as [|c a IH]; intros H; cbn [arrayname]; [reflexivity|].
  destruct (ceq c "[") eqn:E; [apply ceq_true in E; subst; exfalso; apply H; left; reflexivity|]. rewrite IH; [reflexivity|]. intros X. apply H. right. exact X.
Qed.
Lemma skip_varname_spec s nm p : skip_varname s = (nm, p) -> s = nm ++ p /\ forallb letnum nm = true /\
  (nm <> [] -> match p with c :: _ => letnum c = false | [] => True end).
Proof.
  unfold skip_varname. destruct s as [|c s]; [intros [= <- <-]; cbn; auto|].
  destruct (letter c); [|intros [= <- <-]; cbn; repeat split; auto; congruence].
  intros H. pose proof (@span_spec letnum (c :: s)) as (A & B & C). rewrite H in *. cbn [fst snd] in *. auto.
Qed.
Lemma split_ref_some n nm sub : split_ref n = (nm, Some sub) -> exists p, n = nm ++ "["%char :: p /\ forallb letnum nm = true /\ nm <> [].
Proof.
  unfold split_ref. destruct (skip_varname n) as [x p] eqn:E. apply skip_varname_spec in E. destruct E as (E & F & _).
  destruct (array_ref_len p) eqn:A; [discriminate|]. destruct x as [|c x]; [discriminate|]. intros [= <- _].
  destruct p as [|d p]; [discriminate|]. cbn in A. destruct (ceq d "[") eqn:D; [|discriminate]. apply ceq_true in D. subst d.
  exists p. repeat split; auto. discriminate.
Qed.
Lemma split_ref_none n nm : split_ref n = (nm, None) -> nm = n.
Proof.
  unfold split_ref. destruct (skip_varname n) as [x p]. destruct (array_ref_len p); [congruence|]. destruct x; congruence.
Qed.
Lemma array_ref_len_no s : ~ In "["%char s -> array_ref_len s = O.
Proof. destruct s as [|c s]; cbn; [auto|]. destruct (ceq c "[") eqn:E; [|auto]. apply ceq_true in E. subst. intros H. exfalso. auto. Qed.
Lemma split_ref_plain n : ~ In "["%char n -> split_ref n = (n, None).
Proof.
  intros H. unfold split_ref. destruct (skip_varname n) as [x p] eqn:E. apply skip_varname_spec in E. destruct E as (-> & _ & _).
  rewrite array_ref_len_no; [reflexivity|]. intros Hi. apply H, in_or_app. auto.
Qed.
Lemma subscript_bracket ev st n nm sub i st' : split_ref n = (nm, sub) -> subscript ev st sub = Val i st' -> subok i nm.
Proof.
  intros S H. destruct sub as [sub|].
  - apply split_ref_some in S. destruct S as (p & _ & A & _). cbn [subscript] in H.
    destruct (evaluate ev st sub) as [[[z b]|] st1|st1| |]; cbn [bnd] in H; try discriminate.
    destruct ((z <? 0) || (INT_MAX <? z)) eqn:E; [discriminate|]. injection H as <- <-. split; [apply orb_false_iff in E; lia|].
    apply letnum_forall_no_bracket. exact A.
  - cbn in H. injection H as <- <-. exact I.
Qed.
Lemma is_name_no_bracket n : is_name n = true -> ~ In "["%char n.
Proof.
  unfold is_name. destruct n as [|c n]; [discriminate|]. destruct (skip_varname (c :: n)) as [x [|d p]] eqn:E; [|discriminate]. intros _.
  apply skip_varname_spec in E. destruct E as (-> & A & _). rewrite app_nil_r. apply letnum_forall_no_bracket. exact A.
Qed.
Lemma typeset_name_letter var set tvar v : typeset_name var set = Some (tvar, v) -> exists c r, tvar = c :: r /\ letter c = true.
Proof.
  unfold typeset_name. destruct (skip_varname var) as [nm p] eqn:E. pose proof (skip_varname_spec _ _ _ E) as (F & _ & _).
  destruct nm as [|c nm]; [discriminate|].
  assert (letter c = true) as Hl.
  { unfold skip_varname in E. destruct var as [|d var]; [discriminate|]. destruct (letter d) eqn:D; [|discriminate]. injection F as -> _. exact D. }
  destruct (_ && (_ =? 0)%nat); [discriminate|]. destruct (_ && any set IMPORT && _); [discriminate|].
  assert (exists r, var = c :: r) as (r & Hr) by (rewrite F; cbn; eauto).
  destruct (skipn _ p) as [|d v']; [|destruct (ceq d "=")].
  - destruct (any set IMPORT); [discriminate|]. intros [= <- <-]. subst. eauto.
  - intros [= <- <-]. cbn. eauto.
  - destruct (any set IMPORT); [discriminate|]. intros [= <- <-]. subst. eauto.
Qed.
Lemma split_ref_letter n c r nm sub : n = c :: r -> split_ref n = (nm, sub) -> exists r', nm = c :: r'.
Proof.
  intros -> H. destruct sub as [sub|].
  - apply split_ref_some in H. destruct H as (p & E & _ & Hne). destruct nm as [|d nm]; [congruence|]. injection E as -> _. eauto.
  - apply split_ref_none in H. subst. eauto.
Qed.
Lemma global_plain ev st k n : located st k n -> ~ In "["%char n -> (exists c r, n = c :: r /\ letter c = true) ->
  global ev st n = Val (RVar k n 0) st.
Proof.
  intros HL Hn (c & r & En & Hc). unfold global. rewrite split_ref_plain by assumption. cbn [subscript bnd].
  unfold global_at. subst n. rewrite Hc. rewrite (proj2 (find_block_some _ _ _) HL). destruct HL as (_ & e & -> & _). reflexivity.
Qed.
(** typeset: the entry of an array is the one of its element *)
Lemma base_of ev st tvar k i t : wf st -> (exists c r, tvar = c :: r /\ letter c = true) ->
  located st k (fst (split_ref tvar)) -> deref st (RVar k (fst (split_ref tvar)) i) = Some t -> on t ARRAY = true ->
  global ev st (arrayname tvar) = Val (RVar k (fst (split_ref tvar)) 0) st.
Proof.
  intros [_ Hwf] (c & r & Et & Hc) HL HD HA. destruct (split_ref tvar) as [n sub] eqn:S. cbn [fst] in *.
  destruct (split_ref_letter _ _ _ _ _ Et S) as (r' & En).
  assert (~ In "["%char n) as Hn.
  { cbn [deref] in HD. destruct (entry st k n) as [e|] eqn:E; [|discriminate]. apply (Hwf _ _ _ E).
    unfold get_t in HD. destruct (i =? 0); [left; congruence|]. right. intros X. rewrite X in HD. discriminate. }
  assert (arrayname tvar = n) as ->.
  { destruct sub as [sub|].
    - apply split_ref_some in S. destruct S as (p & -> & _ & _). apply arrayname_app. assumption.
    - apply split_ref_none in S. rewrite <- S. apply arrayname_id. assumption. }
  apply global_plain; eauto.
Qed.
Lemma local_at_located st n copy sub r st' : local_at st n copy sub = (r, st') ->
  match r with RTemp => st' = st | RVar k m i => m = n /\ k = O /\ located st' k n /\ i = match sub with Some v => v | None => 0 end end.
Proof.
  unfold local_at. destruct n as [|c n']; [intros [= <- <-]; reflexivity|]. destruct st as [|b st]; [intros [= <- <-]; reflexivity|].
  destruct (letter c); [|intros [= <- <-]; reflexivity]. set (n := c :: n') in *.
  set (e1 := if copy && _ then _ else ktenter b n). intros [= <- <-]. split; [reflexivity|]. split; [reflexivity|]. split; [|reflexivity].
  split; [split|].
  - rewrite length_put. cbn. lia.
  - intros; lia.
  - eexists. rewrite entry_put_same by (cbn; lia). split; [reflexivity|]. clearbody e1. destruct sub as [v|].
    + destruct (get_t (arraysearch e1 v) v) eqn:G; [apply put_t_defined; auto|]; apply arraysearch_defined.
    + unfold get_t, put_t. cbn. fl. reflexivity.
Qed.

(** ** An invariant through all the functions *)
Definition okO {A} (J : vars -> Prop) (o : out A) : Prop := match o with Val _ st => J st | Fail st => J st | _ => True end.
Definition at_ref (m : cstr) (st : vars) (r : ref) : Prop := match r with RTemp => True | RVar k n _ => n = m /\ located st k n end.
Definition okR (J : vars -> Prop) (m : cstr) (o : out ref) : Prop :=
  match o with Val r st => J st /\ at_ref m st r | Fail st => J st | _ => True end.
Lemma okO_bnd {A B} (J : vars -> Prop) (m : out A) (f : A -> vars -> out B) : okO J m -> (forall a st, J st -> okO J (f a st)) -> okO J (bnd m f).
Proof. destruct m; cbn; auto. Qed.

Section Walk.
Variable ev : vars -> cstr -> list asn * evres.
Variable fuel : nat.
Variable J : vars -> Prop.
Variable W V : nat -> cstr -> Prop.
Hypothesis J_wf : forall st, J st -> wf st.
Hypothesis J_look : forall st k n st', J st -> looked st k n st' -> J st'.
Hypothesis J_V : forall st k n, J st -> resolved st k n -> V k n.
Hypothesis J_W : forall st k n i, J st -> resolved st k n -> rd_only st (RVar k n i) = false -> W k n.
Hypothesis J_write : forall st k n e i t t', J st -> W k n -> entry st k n = Some e -> get_t e i = Some t -> wrel t t' -> J (put st k n (put_t e i t')).

Lemma J_ne st : J st -> st <> []. Proof. intros H. apply (J_wf _ H). Qed.

Lemma walk_write st k n i t t' : J st -> W k n -> deref st (RVar k n i) = Some t -> wrel t t' -> J (assign_t st (RVar k n i) t').
Proof.
  intros HJ HW Hd Hr. destruct (deref_some _ _ _ Hd) as (k' & n' & i' & e & [= <- <- <-] & He & Hg & ->). eapply J_write; eauto.
Qed.
Lemma walk_setint st r z : J st -> match r with RTemp => True | RVar k n _ => W k n end -> okO J (setint st r z).
Proof.
  intros HJ HW. unfold setint. destruct (deref st r) as [t|] eqn:D; [|exact HJ].
  destruct r as [|k n i]; [discriminate|]. destruct (on t INTEGER); cbn [negb].
  - cbn [okO]. eapply walk_write; eauto. eapply wrel_trans; [apply (wrel_val t (VInt z))|]. apply wrel_flag; fl; reflexivity.
  - destruct (str_val_int false false 0 z) as [s| |]; cbn [okO]; auto.
    destruct (on t RDONLY); cbn [okO].
    + eapply walk_write; eauto. apply wrel_flag; fl; reflexivity.
    + cbn [ref_name]. destruct (setstr_string n t s) eqn:E; cbn [okO]; auto.
      eapply walk_write; eauto. eapply wrel_trans; [eapply wrel_setstr; eauto|]. apply wrel_flag; fl; reflexivity.
Qed.
Lemma walk_global_at st n sub : J st -> subok sub n -> forall r st', global_at st n sub = (r, st') ->
  J st' /\ at_ref n st' r.
Proof.
  intros HJ Hb r st' H. pose proof (global_at_looked _ _ _ _ _ (J_ne _ HJ) Hb H) as L0. destruct r as [|k m i].
  - subst. cbn. auto.
  - destruct L0 as (-> & L0 & _). split; [eauto|]. split; [reflexivity|]. apply (looked_located _ _ _ _ L0).
Qed.
Lemma walk_arith_asn st a : J st -> okO J (arith_asn st a).
Proof.
  intros HJ. unfold arith_asn. destruct (is_name (a_name a)) eqn:Hn; cbn [negb]; [|exact HJ].
  destruct ((a_idx a <? 0) || (INT_MAX <? a_idx a)) eqn:Hx; [exact HJ|].
  assert (subok (if a_idx a =? 0 then None else Some (a_idx a)) (a_name a)) as HSU.
  { destruct (a_idx a =? 0); cbn; [auto|]. split; [|apply is_name_no_bracket; assumption]. apply orb_false_iff in Hx. lia. }
  destruct (global_at st (a_name a) _) as [r st'] eqn:G.
  destruct (walk_global_at _ _ _ HJ HSU _ _ G) as [HJ' HL].
  destruct (rd_only st' r) eqn:R; [exact HJ'|].
  destruct (deref st' r) as [t|] eqn:D; [|exact HJ'].
  destruct r as [|k n i]; [discriminate|]. pose proof (J_W _ _ _ _ HJ' (proj1 (proj2 HL)) R) as HW.
  destruct (on t INTEGER).
  - cbn [okO]. eapply walk_write; eauto. apply wrel_setint_v.
  - apply okO_bnd; [apply walk_setint; auto|]. intros _ st1 H1. exact H1.
Qed.
Lemma walk_arith_asns l : forall st, J st -> okO J (arith_asns st l).
Proof.
  induction l as [|a l IH]; intros st HJ; cbn [arith_asns]; [exact HJ|].
  apply okO_bnd; [apply walk_arith_asn; auto|]. intros [] st1 H1; [auto|exact H1].
Qed.
Lemma walk_evaluate st s : J st -> okO J (evaluate ev st s).
Proof.
  intros HJ. unfold evaluate. destruct (ev st s) as [l r]. apply okO_bnd; [apply walk_arith_asns; auto|].
  intros [] st1 H1; [|exact H1]. destruct r; exact H1.
Qed.
Lemma walk_subscript st s : J st -> okO J (subscript ev st s).
Proof.
  intros HJ. unfold subscript. destruct s as [s|]; [|exact HJ]. apply okO_bnd; [apply walk_evaluate; auto|].
  intros [[z b]|] st1 H1; [|exact H1]. destruct (_ || _); exact H1.
Qed.
Lemma walk_global st n : J st -> okR J (fst (split_ref n)) (global ev st n).
Proof.
  intros HJ. unfold global. destruct (split_ref n) as [nm sub] eqn:Sp. cbn [fst]. pose proof (walk_subscript st sub HJ) as H.
  destruct (subscript ev st sub) as [i st1|st1| |] eqn:SU; cbn [bnd]; auto.
  destruct (global_at st1 nm i) as [r st2] eqn:G. apply (walk_global_at _ _ _ H (subscript_bracket _ _ _ _ _ _ _ Sp SU) _ _ G).
Qed.
Definition okref (st : vars) (r : ref) : Prop := match r with RTemp => True | RVar k n _ => W k n \/ resolved st k n end.
Definition wref (r : ref) : Prop := match r with RTemp => True | RVar k n _ => W k n end.
Lemma walk_setstr st r s u ign : J st -> okref st r -> (ign = true -> wref r) -> okO J (setstr ev st r s u ign).
Proof.
  intros HJ Hr Hi. unfold setstr. destruct (rd_only st r && negb ign) eqn:R; [destruct u; exact HJ|].
  destruct (deref st r) as [t|] eqn:D; [|exact I].
  destruct r as [|k n i]; [discriminate|].
  assert (W k n) as HW.
  { destruct ign; [exact (Hi eq_refl)|]. cbn [negb] in R. rewrite andb_true_r in R. destruct Hr as [|Hr]; [assumption|]. eapply J_W; eauto. }
  destruct (on t INTEGER); cbn [negb].
  - apply okO_bnd; [apply walk_evaluate; auto|]. intros [[z b]|] st1 H1; [|destruct u; exact H1].
    destruct (deref st1 (RVar k n i)) as [t1|] eqn:D1; [|exact I]. cbn [okO]. eapply walk_write; eauto. apply wrel_setint_v.
  - destruct (setstr_string _ t s) eqn:E; cbn [okO]; auto. eapply walk_write; eauto. eapply wrel_setstr; eauto.
Qed.
Lemma okR_bnd {B} n (m : out ref) (f : ref -> vars -> out B) : okR J n m ->
  (forall r st, J st -> at_ref n st r -> okO J (f r st)) -> okO J (bnd m f).
Proof. destruct m; cbn; auto. intros [A C] H. auto. Qed.

(** typeset *)
Hypothesis J_mark : forall st k n e i t set, J st -> V k n -> entry st k n = Some e -> get_t e i = Some t -> N.ldiff set EXPORT = 0%N ->
  J (put st k n (put_t e i (set_flag t (N.lor (t_flag t) set)))).
Hypothesis J_export : forall st k n e s, J st -> V k n -> entry st k n = Some e -> on (e_base e) EXPORT = true -> on (e_base e) INTEGER = false ->
  t_type (e_base e) = 0 -> (if on (e_base e) ISSET then t_val (e_base e) = VStr s else s = []) ->
  J (put st k n (put_t e 0 (export n (e_base e) s))).
Hypothesis J_local : forall st n copy sub r st', J st -> subok sub n -> local_at st n copy sub = (r, st') -> J st'.

Lemma walk_typeset_elem st k n i set clr f b tg : J st -> V k n -> maskok set -> maskok clr ->
  W k n \/ (clr = 0%N /\ N.ldiff set EXPORT = 0%N) -> okO J (typeset_elem ev st k n i set clr f b tg).
Proof.
  intros HJ HV Hs Hc HW. unfold typeset_elem. destruct (deref st (RVar k n i)) as [t|] eqn:D; [|exact I].
  destruct (fake_assign t set clr tg) eqn:F.
  - assert (W k n) as HW'.
    { destruct HW as [|[-> Hse]]; [assumption|exfalso]. unfold fake_assign, JUSTIFY in F. rewrite any_0, andb_false_r, orb_false_r in F.
      repeat rewrite any_lor_r in F.
      repeat rewrite (any_ldiff0 set EXPORT _ Hse) in F by (auto with bits; reflexivity). cbn in F.
      rewrite andb_false_r in F. cbn in F. rewrite andb_false_r in F. discriminate. }
    destruct (str_val t) as [[s w]| |]; try exact I.
    assert (J (assign_t st (RVar k n i) (retype (set_field t w) set clr f b tg true))) as H1.
    { eapply walk_write; eauto. eapply wrel_trans; [apply (wrel_field t w)|]. apply wrel_retype; auto. }
    apply okO_bnd; [apply walk_setstr; cbn; auto|]. intros [] st1 H2; [exact H2|].
    destruct (deref st1 (RVar k n i)) as [t1|] eqn:D1; [|exact I]. cbn [okO]. eapply walk_write; eauto. apply wrel_zap.
  - cbn [okO]. destruct HW as [HW|[-> Hse]].
    + eapply walk_write; eauto. eapply wrel_trans; [apply (wrel_field t (t_field t))|]. apply wrel_retype; auto.
    + assert (retype (set_field t (t_field t)) set 0 f b tg false = set_flag t (N.lor (t_flag t) set)) as ->.
      { unfold retype. assert (any set INTEGER = false) as HI by (eapply any_ldiff0; eauto with bits; reflexivity).
        rewrite HI, andb_false_r. cbn [andb]. rewrite !any_lor_r.
        rewrite !(any_ldiff0 set EXPORT _ Hse) by (auto with bits; reflexivity). cbn [orb]. rewrite N.ldiff_0_r. destruct t; reflexivity. }
      destruct (deref_some _ _ _ D) as (k' & n' & i' & e & [= <- <- <-] & He & Hg & ->). eapply J_mark; eauto.
Qed.
Lemma walk_typeset_loop set clr f b tg k n : V k n -> maskok set -> maskok clr -> W k n \/ (clr = 0%N /\ N.ldiff set EXPORT = 0%N) ->
  forall fl st i ok, J st -> okO J (typeset_loop ev fl st k n i set clr f b tg ok).
Proof.
  intros HV Hs Hc HW. induction fl as [|fl IH]; intros st i ok HJ; cbn [typeset_loop]; [exact I|].
  apply okO_bnd; [apply walk_typeset_elem; auto|]. intros o st1 H1.
  destruct (entry st1 k n) as [e|]; [|exact I]. destruct (next_idx (e_elems e) i); [auto|exact H1].
Qed.
Lemma walk_typeset_end st vp kb nb val b : J st -> V kb nb -> (val <> None -> wref vp) -> okO J (typeset_end ev st vp kb nb val b).
Proof.
  intros HJ HVV HW. unfold typeset_end. apply okO_bnd.
  - destruct val as [v|]; [|exact HJ]. assert (wref vp) as HV by (apply HW; discriminate).
    destruct (deref st vp) as [t|] eqn:D; [|exact I]. destruct vp as [|k n i]; [discriminate|]. cbn in HV.
    destruct (on t INTEGER).
    + apply okO_bnd; [apply walk_setstr; cbn; auto|]. intros _ st1 H1. destruct (0 <? b); [|exact H1].
      destruct (deref st1 (RVar k n i)) as [t1|] eqn:D1; [|exact I]. cbn [okO]. eapply walk_write; eauto. apply wrel_type.
    + apply okO_bnd; [apply walk_setstr; cbn; auto|]. intros _ st1 H1. exact H1.
  - intros _ st1 H1. destruct (deref st1 (RVar kb nb 0)) as [t|] eqn:D; [|exact I].
    destruct (on t EXPORT && negb (on t INTEGER) && (t_type t =? 0)) eqn:C; [|exact H1].
    apply andb_true_iff in C. destruct C as [C C3]. apply andb_true_iff in C. destruct C as [C1 C2].
    apply negb_true_iff in C2. apply Z.eqb_eq in C3.
    destruct (deref_some _ _ _ D) as (k' & n' & i' & e & [= <- <- <-] & He & Hg & HA). unfold get_t in Hg. cbn in Hg. injection Hg as Hg. subst t.
    destruct (on (e_base e) ISSET) eqn:Is.
    + destruct (t_val (e_base e)) eqn:TV; try exact I. cbn [okO]. rewrite HA. eapply J_export; eauto. rewrite Is. assumption.
    + cbn [okO]. rewrite HA. eapply J_export; eauto. rewrite Is. reflexivity.
Qed.

Lemma walk_local st n copy : J st -> okR J (fst (split_ref n)) (local ev st n copy).
Proof.
  intros HJ. unfold local. destruct (split_ref n) as [nm sub] eqn:Sp. cbn [fst]. pose proof (walk_subscript st sub HJ) as H.
  destruct (subscript ev st sub) as [i st1|st1| |] eqn:SU; cbn [bnd]; auto.
  destruct (local_at st1 nm copy i) as [r st2] eqn:G. cbn. split; [eapply J_local; [exact H|eapply subscript_bracket; eauto|exact G]|].
  pose proof (local_at_located _ _ _ _ _ _ G) as X. destruct r; cbn; [auto|]. destruct X as (-> & -> & X & _). auto.
Qed.
Lemma walk_typeset_var st vp tvar val set clr f b : J st -> (exists c r, tvar = c :: r /\ letter c = true) ->
  at_ref (fst (split_ref tvar)) st vp -> maskok set -> maskok clr -> okO J (typeset_var ev fuel st vp tvar val set clr f b).
Proof.
  intros HJ Hl HR Hs Hc. unfold typeset_var. destruct (deref st vp) as [t|] eqn:D; [|exact HJ].
  destruct vp as [|k n i]; [discriminate|]. destruct HR as [-> HL].
  set (n := fst (split_ref tvar)) in *.
  assert (exists j, (if on t ARRAY then global ev st (arrayname tvar) else Val (RVar k n i) st) = Val (RVar k n j) st) as (j & ->).
  { destruct (on t ARRAY) eqn:A; [|eauto]. exists 0. eapply base_of; eauto. }
  cbn [bnd]. destruct (rd_only st (RVar k n j) && _) eqn:R; [exact HJ|].
  assert (W k n \/ val = None /\ clr = 0%N /\ N.ldiff set EXPORT = 0%N) as HW.
  { apply andb_false_iff in R. destruct R as [R|R].
    - left. eapply J_W; eauto. apply HL.
    - right. apply orb_false_iff in R. destruct R as [R R3]. apply orb_false_iff in R. destruct R as [R1 R2].
      apply negb_false_iff, N.eqb_eq in R2, R3. destruct val; [discriminate|]. auto. }
  assert (V k n) as HV by (eapply J_V; [exact HJ|apply HL]).
  apply okO_bnd.
  - destruct (N.lor set clr =? 0)%N; [exact HJ|]. apply walk_typeset_loop; auto. tauto.
  - intros ok st1 H1. destruct ok; [|exact H1]. apply walk_typeset_end; [assumption|assumption|]. intros Hv. cbn. destruct HW as [|[-> _]]; [assumption|congruence].
Qed.
Lemma maskok_ldiff m x : maskok m -> maskok (N.ldiff m x).
Proof. intros [A B]. unfold maskok. rewrite !any_ldiff by auto with bits. rewrite A, B. auto. Qed.
Lemma walk_typeset st var set clr f b : J st -> maskok set -> maskok clr -> okO J (typeset ev fuel st var set clr f b).
Proof.
  intros HJ Hs Hc. unfold typeset. destruct (typeset_name var set) as [[tvar val]|] eqn:T; [|exact HJ].
  pose proof (typeset_name_letter _ _ _ _ T) as Hl.
  eapply okR_bnd; [destruct (any set LOCAL); [apply walk_local|apply walk_global]; assumption|].
  intros r st1 H1 HR. apply walk_typeset_var; auto using maskok_ldiff.
Qed.

(** unset and the other commands *)
Variable Un : cstr -> Prop.
Hypothesis J_unset : forall st k n i b, J st -> W k n -> Un n -> J (unset st (RVar k n i) b).
Hypothesis J_reset : forall st k n e, J st -> W k n -> ~ In "["%char n -> entry (unset st (RVar k n 0) false) k n = Some e ->
  J (put (unset st (RVar k n 0) false) k n (arraysearch e 0)).
Hypothesis J_array : forall st k n e v, J st -> W k n -> subok (Some v) n -> entry st k n = Some e -> J (put st k n (arraysearch e v)).
Hypothesis J_field : forall st k n e i t s w, J st -> V k n -> entry st k n = Some e -> get_t e i = Some t -> str_val t = Ok (s, w) ->
  J (put st k n (put_t e i (set_field t w))).

Lemma walk_c_unset st id : J st -> Un (fst (split_ref id)) -> okO J (c_unset ev st id).
Proof.
  intros HJ HU. unfold c_unset. eapply okR_bnd; [apply walk_global; assumption|]. intros r st1 H1 HR.
  destruct (rd_only st1 r) eqn:R; [exact H1|]. destruct r as [|k n i]; [discriminate|]. destruct HR as [-> HL]. cbn [okO].
  apply J_unset; auto. eapply J_W; eauto. apply HL.
Qed.
Lemma walk_set_elems k n vals : W k n -> ~ In "["%char n -> forall st i, 0 <= i -> J st -> okO J (set_elems ev st k n i vals).
Proof.
  intros HW Hb. induction vals as [|v vals IH]; intros st i Hi HJ; cbn [set_elems]; [exact HJ|].
  destruct (entry st k n) as [e|] eqn:E; [|exact I]. apply okO_bnd; [|intros _ st1 H1; apply IH; [lia|assumption]].
  apply walk_setstr; [apply J_array; cbn; auto|left; assumption|discriminate].
Qed.
Lemma walk_set_array st n reset vals : J st -> (reset = true -> vals = [] -> Un (fst (split_ref n))) ->
  is_name n = true -> okO J (set_array ev st n reset vals).
Proof.
  intros HJ HU Hin. pose proof (is_name_no_bracket _ Hin) as Hb. pose proof (split_ref_plain _ Hb) as Hn. unfold set_array.
  assert (forall r st1, J st1 -> at_ref n st1 r -> (match r with RVar _ _ i => i = 0 | _ => True end) -> okO J
    (match r with RTemp => Fail st1 | RVar k n _ => if rd_only st1 r then Fail st1
      else set_elems ev (if reset then unset st1 r false else st1) k n 0 vals end)) as G.
  { intros r st1 H1 HR Hi. destruct r as [|k m i]; [exact H1|]. destruct HR as [-> HL]. subst i.
    destruct (rd_only st1 (RVar k n 0)) eqn:R; [exact H1|]. assert (W k n) as HW by (eapply J_W; eauto; apply HL).
    destruct reset; [|apply walk_set_elems; auto; lia]. destruct vals as [|v vals].
    - cbn [set_elems okO]. apply J_unset; auto. rewrite Hn in HU. auto.
    - cbn [set_elems]. destruct (entry _ k n) as [e|] eqn:E; [|exact I]. apply okO_bnd.
      + apply walk_setstr; [apply J_reset; auto|left; assumption|discriminate].
      + intros _ st2 H2. apply walk_set_elems; auto; lia. }
  pose proof (walk_global st n HJ) as HG. rewrite Hn in HG. cbn [fst] in HG. unfold global in HG |- *. rewrite Hn in *.
  cbn [subscript bnd] in *. pose proof (global_at_looked st n None) as HK. destruct (global_at st n None) as [r st1] eqn:E. cbn [bnd].
  destruct HG as [H1 HR]. apply G; auto. specialize (HK _ _ (J_ne _ HJ) I eq_refl). destruct r; [auto|]. apply HK.
Qed.
Lemma walk_assign_to st n s u : J st -> okO J (assign_to ev st n s u).
Proof.
  intros HJ. unfold assign_to. eapply okR_bnd; [apply walk_global; assumption|]. intros r st1 H1 HR.
  apply walk_setstr; [assumption| |discriminate]. destruct r; cbn; [auto|]. right. apply HR.
Qed.
Lemma walk_c_read st n s x : J st -> okO J (c_read ev fuel st n s x).
Proof.
  intros HJ. unfold c_read. eapply okR_bnd; [apply walk_global; assumption|]. intros r st1 H1 HR.
  destruct (rd_only st1 r) eqn:R; [exact H1|].
  assert (wref r) as HW. { destruct r; cbn; [auto|]. destruct HR as [-> HR]. eapply J_W; eauto. apply HR. }
  apply okO_bnd.
  - destruct x; [|exact H1]. apply walk_typeset; [assumption| |]; split; reflexivity.
  - intros _ st2 H2. apply walk_setstr; [assumption| |discriminate]. destruct r; cbn in *; auto.
Qed.
Lemma walk_get st n : J st -> okO J (get ev st n).
Proof.
  intros HJ. unfold get. eapply okR_bnd; [apply walk_global; assumption|]. intros r st1 H1 HR.
  destruct (deref st1 r) as [t|] eqn:D; [|exact H1]. destruct (str_val t) as [[s w]| |] eqn:S; try exact I. cbn [okO].
  destruct (deref_some _ _ _ D) as (k & m & i & e & -> & He & Hg & ->). eapply J_field; eauto. destruct HR as [-> HL]. eapply J_V; [exact H1|apply HL].
Qed.
Lemma walk_get_all st n : J st -> okO J (get_all ev st n).
Proof.
  intros HJ. unfold get_all. eapply okR_bnd; [apply walk_global; assumption|]. intros r st1 H1 HR.
  destruct r; [exact H1|]. destruct (entry st1 k n0); exact H1.
Qed.
Definition unsets (o : vop) (m : cstr) : Prop :=
  match o with Unset id => fst (split_ref id) = m | SetArray n true [] => n = m | _ => False end.
Lemma okop_mask m : N.ldiff m TYPESET_BITS = 0%N -> maskok m.
Proof. intros H. split; eapply any_ldiff0; eauto with bits; reflexivity. Qed.
Lemma walk_step st o : J st -> okop o = true -> o <> NewBlock -> o <> PopBlock -> (forall m, unsets o m -> Un m) -> okO J (step ev fuel st o).
Proof.
  intros HJ Hok Hnb Hpb HU. destruct o; cbn [step].
  - cbn in Hok. apply andb_true_iff in Hok. destruct Hok as [A B]. apply N.eqb_eq in A, B.
    apply okO_bnd; [apply walk_typeset; auto using okop_mask|]. intros r st1 H1. exact H1.
  - apply walk_c_unset; auto. apply HU. reflexivity.
  - destruct (is_name n) eqn:N0; [|exact HJ]. apply okO_bnd; [|intros _ st1 H1; exact H1].
    apply walk_set_array; auto. intros -> ->. apply HU. cbn. rewrite split_ref_plain by (apply is_name_no_bracket; assumption). reflexivity.
  - apply walk_assign_to; auto.
  - apply walk_c_read; auto.
  - apply okO_bnd; [apply walk_evaluate; auto|]. intros r st1 H1. exact H1.
  - apply okO_bnd; [apply walk_get; auto|]. intros r st1 H1. exact H1.
  - apply okO_bnd; [apply walk_get_all; auto|]. intros r st1 H1. exact H1.
  - congruence.
  - congruence.
Qed.
End Walk.
