(** C48: listings in columns. *)
From Verif Require Import Base Columns_model.
From Coq Require Import Permutation.
Local Open Scope Z_scope.

(** [line] shows the entries [is] one after the other, with nothing but blanks between. *)
Inductive shows (f : Z -> cstr) : list Z -> cstr -> Prop :=
| ShNil : shows f [] []
| ShCons i is k line : shows f is line -> shows f (i :: is) (f i ++ repeat SP k ++ line).

(** * The layout *)
Lemma lay_ok x n w pc : 0 < x -> 0 <= n -> 0 <= w ->
  let l := lay x n w pc in
  0 < gap l /\ (0 < n -> 0 < rows l /\ 0 < cols l /\ n <= rows l * cols l) /\ (n = 0 -> rows l = 0)
  /\ (width l = w \/ cols l = 1 /\ width l = 0)
  /\ (1 < cols l -> cols l * (w + gap l) <= x) /\ rows l <= n.
Proof.
  intros Hx Hn Hw. unfold lay. cbv zeta.
  set (c0 := x / (w + 1)). assert (C0 : 0 <= c0 /\ c0 * (w + 1) <= x).
  { subst c0. split; [apply Z.div_pos; lia|]. pose proof (Z.mul_div_le x (w + 1)). lia. }
  set (c := if c0 =? 0 then 1 else c0).
  assert (C : 1 <= c /\ (1 < c -> c * (w + 1) <= x)) by (subst c; destruct (Z.eqb_spec c0 0); lia).
  set (r := (n + c - 1) / c).
  assert (Rr : 0 <= r /\ n <= r * c /\ r * c <= n + c - 1).
  { subst r. split; [apply Z.div_pos; lia|]. pose proof (Z.mul_div_le (n + c - 1) c). pose proof (Z.mul_succ_div_gt (n + c - 1) c). nia. }
  assert (G : forall c', 1 <= c' -> (1 < c' -> c' * (w + 1) <= x) ->
    let g := (x - w * c') / c' in let g' := if g <=? 0 then 1 else g in 0 < g' /\ (1 < c' -> c' * (w + g') <= x)).
  { intros c' H1 H2 g g'. subst g'. pose proof (Z.mul_div_le (x - w * c') c' ltac:(lia)) as M. fold g in M.
    destruct (Z.leb_spec g 0) as [L1|L1]; split; try lia; intros H; nia. }
  destruct (Z.eqb_spec n 0) as [N0|N0].
  - rewrite andb_false_r. cbn [andb rows cols width gap].
    assert (r = 0) by (subst r; rewrite N0; replace (0 + c - 1) with (c - 1) by lia; apply Z.div_small; lia).
    destruct (G c ltac:(lia) ltac:(lia)) as [G1 G2].
    split; [exact G1|]. split; [lia|]. split; [auto|]. split; [destruct (Z.eqb_spec c 1); auto|]. split; [exact G2|lia].
  - cbn [negb]. rewrite andb_true_r. destruct pc; cbn [andb].
    + destruct (Z.ltb_spec r c) as [RC|RC]; cbn [rows cols width gap].
      * assert (1 <= r) by nia. destruct (G r ltac:(lia) ltac:(nia)) as [G1 G2].
        split; [exact G1|]. split; [intros _; destruct (Z.ltb_spec n c); nia|]. split; [lia|]. split; [destruct (Z.eqb_spec r 1); auto|]. split; [exact G2|].
        destruct (Z.ltb_spec n c); lia.
      * destruct (G c ltac:(lia) ltac:(lia)) as [G1 G2]. split; [exact G1|]. split; [nia|]. split; [lia|].
        split; [destruct (Z.eqb_spec c 1); auto|]. split; [exact G2|]. nia.
    + cbn [rows cols width gap]. destruct (G c ltac:(lia) ltac:(lia)) as [G1 G2]. split; [exact G1|]. split; [nia|]. split; [lia|].
      split; [destruct (Z.eqb_spec c 1); auto|]. split; [exact G2|]. nia.
Qed.

(** * Every number once *)
Lemma perm_cons_flat {A B} (x : A -> B) (g : A -> list B) l :
  Permutation (flat_map (fun a => x a :: g a) l) (map x l ++ flat_map g l).
Proof.
  induction l as [|a l IH]; cbn; [constructor|]. constructor. rewrite IH.
  rewrite app_assoc, (Permutation_app_comm (g a) (map x l)), <- app_assoc. reflexivity.
Qed.
Lemma flat_swap {A B C} (h : A -> B -> C) la lb :
  Permutation (flat_map (fun a => map (h a) lb) la) (flat_map (fun b => map (fun a => h a b) la) lb).
Proof.
  induction lb as [|b lb IH]; cbn.
  - induction la; cbn; auto.
  - rewrite perm_cons_flat. apply Permutation_app_head. exact IH.
Qed.
Lemma flat_seq R C : flat_map (fun c => map (fun r => c * R + r)%nat (seq 0 R)) (seq 0 C) = seq 0 (C * R).
Proof.
  induction C as [|C IH]; [reflexivity|]. rewrite seq_S, flat_map_app, IH. cbn [flat_map]. rewrite app_nil_r.
  replace (S C * R)%nat with (C * R + R)%nat by lia. rewrite seq_app. f_equal. cbn [plus].
  clear. generalize (C * R)%nat. intros m. induction R as [|R IHR]; [reflexivity|].
  rewrite !seq_S, map_app, IHR. reflexivity.
Qed.
Lemma perm_filter {A} (p : A -> bool) a b : Permutation a b -> Permutation (filter p a) (filter p b).
Proof.
  induction 1; cbn; [constructor| | |etransitivity; eassumption].
  - destruct (p x); [constructor|]; assumption.
  - destruct (p x), (p y); try constructor; reflexivity.
Qed.
Lemma filter_concat {A} (p : A -> bool) ls : filter p (concat ls) = concat (map (filter p) ls).
Proof. induction ls as [|l ls IH]; cbn; [reflexivity|]. rewrite filter_app, IH. reflexivity. Qed.

Definition numbers (n : Z) : list Z := map Z.of_nat (seq 0 (Z.to_nat n)).

Lemma items_perm n l : 0 <= n -> (n = 0 -> rows l = 0) -> (0 < n -> 0 < rows l /\ 0 < cols l /\ n <= rows l * cols l) ->
  Permutation (concat (map (row_items n l) (seq 0 (Z.to_nat (rows l))))) (numbers n).
Proof.
  intros Hn H0 H1. destruct (Z.eq_dec n 0) as [->|NZ]; [rewrite (H0 eq_refl); constructor|].
  destruct (H1 ltac:(lia)) as [Hr [Hc Hp]]. set (R := Z.to_nat (rows l)). set (C := Z.to_nat (cols l)).
  assert (E : map (row_items n l) (seq 0 R) =
     map (filter (fun i => i <? n)) (map (fun r => map Z.of_nat (map (fun c => c * R + r)%nat (seq 0 C))) (seq 0 R))).
  { rewrite map_map. apply map_ext. intros r. unfold row_items. f_equal. fold C. rewrite map_map. apply map_ext. intros c. lia. }
  rewrite E, <- filter_concat, <- map_map, <- concat_map, <- flat_map_concat_map.
  etransitivity; [apply perm_filter, Permutation_map, flat_swap|]. cbv beta.
  rewrite (flat_seq R C). unfold numbers.
  assert (P : (C * R = Z.to_nat n + (C * R - Z.to_nat n))%nat) by nia.
  rewrite P, seq_app, map_app, filter_app.
  assert (F1 : filter (fun i => i <? n) (map Z.of_nat (seq 0 (Z.to_nat n))) = map Z.of_nat (seq 0 (Z.to_nat n))).
  { assert (K : forall ls, (forall i, In i ls -> i < n) -> filter (fun i => i <? n) ls = ls).
    { induction ls as [|i ls IH]; intros K; [reflexivity|]. cbn. destruct (Z.ltb_spec i n); [|specialize (K i (or_introl eq_refl)); lia].
      f_equal. apply IH. intros j Hj. apply K. right. exact Hj. }
    apply K. intros i Hi. apply in_map_iff in Hi. destruct Hi as [k [<- Hk]]. apply in_seq in Hk. lia. }
  assert (F2 : filter (fun i => i <? n) (map Z.of_nat (seq (0 + Z.to_nat n) (C * R - Z.to_nat n))) = []).
  { assert (K : forall ls, (forall i, In i ls -> n <= i) -> filter (fun i => i <? n) ls = []).
    { induction ls as [|i ls IH]; intros K; [reflexivity|]. cbn. destruct (Z.ltb_spec i n); [specialize (K i (or_introl eq_refl)); lia|].
      apply IH. intros j Hj. apply K. right. exact Hj. }
    apply K. intros i Hi. apply in_map_iff in Hi. destruct Hi as [k [<- Hk]]. apply in_seq in Hk. lia. }
  rewrite F1, F2, app_nil_r. reflexivity.
Qed.

Lemma row_shows n l f r : shows f (row_items n l r) (row_text n l f r).
Proof.
  unfold row_items, row_text. induction (seq 0 (Z.to_nat (cols l))) as [|c cs IH]; cbn [map concat filter]; [constructor|].
  destruct (Z.of_nat c * rows l + Z.of_nat r <? n); [|exact IH]. unfold pad. rewrite <- !app_assoc.
  destruct (Z.of_nat c + 1 <? cols l); cbn [app].
  - rewrite (app_assoc (repeat SP _) (repeat SP _)), <- repeat_app. constructor. exact IH.
  - constructor. exact IH.
Qed.

(** Whatever the width of the terminal, the number of entries and their width: each entry is
    shown exactly once, and reading down the columns gives them in order. *)
Theorem c48_every_entry_once : forall x n w pc f, 0 < x -> 0 <= n -> 0 <= w ->
  exists items R, Permutation (concat items) (numbers n)
    /\ Forall2 (shows f) items (print_columns x n w pc f)
    /\ Z.of_nat (length items) = R
    /\ forall r c i, nth_error items r = Some c -> In i c -> i mod R = Z.of_nat r.
Proof.
  intros x n w pc f Hx Hn Hw. pose proof (lay_ok x n w pc Hx Hn Hw) as LO. cbv zeta in LO. unfold print_columns. cbv zeta.
  set (l := lay x n w pc) in *. destruct LO as [_ [L1 [L0 [_ [_ L5]]]]].
  exists (map (row_items n l) (seq 0 (Z.to_nat (rows l)))), (rows l). split; [|split; [|split]].
  - apply items_perm; assumption.
  - induction (seq 0 (Z.to_nat (rows l))) as [|r rs IH]; cbn [map]; constructor; [apply row_shows|exact IH].
  - rewrite map_length, seq_length. destruct (Z.eq_dec n 0) as [->|]; [rewrite (L0 eq_refl); reflexivity|lia].
  - intros r c i Hc Hi. assert (Hr : (r < Z.to_nat (rows l))%nat).
    { assert (X : nth_error (map (row_items n l) (seq 0 (Z.to_nat (rows l)))) r <> None) by congruence.
      apply nth_error_Some in X. rewrite map_length, seq_length in X. exact X. }
    rewrite nth_error_map in Hc. assert (NS : nth_error (seq 0 (Z.to_nat (rows l))) r = Some r).
    { rewrite (nth_error_nth' _ 0%nat) by (rewrite seq_length; exact Hr). rewrite seq_nth by exact Hr. reflexivity. }
    rewrite NS in Hc. cbn in Hc. injection Hc as <-. unfold row_items in Hi. apply filter_In in Hi. destruct Hi as [Hi _].
    apply in_map_iff in Hi. destruct Hi as [k [<- _]]. rewrite Z.add_comm, Z.mod_add by lia. apply Z.mod_small. lia.
Qed.
Print Assumptions c48_every_entry_once.

(** If the entries are no longer than announced and one fits into the terminal, no line is
    longer than the terminal is wide. *)
Theorem c48_fits : forall x n w pc f, 0 < x -> 0 <= n -> 0 <= w -> w <= x ->
  (forall i, Z.of_nat (length (f i)) <= w) ->
  forall line, In line (print_columns x n w pc f) -> Z.of_nat (length line) <= x.
Proof.
  intros x n w pc f Hx Hn Hw Hwx Hf line Hl. pose proof (lay_ok x n w pc Hx Hn Hw) as LO. cbv zeta in LO. unfold print_columns in Hl. cbv zeta in Hl.
  set (l := lay x n w pc) in *. destruct LO as [G [L1 [L0 [W [L4 L5]]]]]. apply in_map_iff in Hl. destruct Hl as [r [<- _]].
  unfold row_text. clearbody l.
  assert (K : forall cs, (forall c, In c cs -> Z.of_nat c < cols l) ->
    Z.of_nat (length (concat (map (fun c => let i := Z.of_nat c * rows l + Z.of_nat r in
       if i <? n then pad (width l) (f i) ++ (if Z.of_nat c + 1 <? cols l then repeat SP (Z.to_nat (gap l)) else []) else []) cs)))
    <= Z.of_nat (length cs) * (if cols l =? 1 then w else w + gap l)).
  { induction cs as [|c cs IH]; intros Hc; [cbn; lia|]. cbn [map concat]. cbv zeta. rewrite app_length, Nat2Z.inj_add. cbn [length].
    specialize (IH ltac:(intros; apply Hc; right; assumption)). cbv zeta in IH. specialize (Hc c (or_introl eq_refl)).
    assert (X : Z.of_nat (length (if Z.of_nat c * rows l + Z.of_nat r <? n then pad (width l) (f (Z.of_nat c * rows l + Z.of_nat r)) ++
         (if Z.of_nat c + 1 <? cols l then repeat SP (Z.to_nat (gap l)) else []) else [])) <= (if cols l =? 1 then w else w + gap l)).
    { destruct (_ <? n); [|cbn [length]; destruct (cols l =? 1); lia]. rewrite app_length, Nat2Z.inj_add. unfold pad. rewrite app_length, repeat_length.
      specialize (Hf (Z.of_nat c * rows l + Z.of_nat r)). destruct (Z.eqb_spec (cols l) 1) as [E|E].
      - destruct (Z.ltb_spec (Z.of_nat c + 1) (cols l)); [lia|]. cbn [length]. lia.
      - destruct W as [W|[W _]]; [|contradiction]. destruct (Z.of_nat c + 1 <? cols l); rewrite ?repeat_length; cbn [length]; lia. }
    set (KK := if cols l =? 1 then w else w + gap l) in *. clearbody KK. rewrite Nat2Z.inj_succ. lia. }
  specialize (K (seq 0 (Z.to_nat (cols l)))). rewrite seq_length in K.
  assert (K2 := K ltac:(intros c Hc; apply in_seq in Hc; lia)). clear K. destruct (Z.eqb_spec (cols l) 1) as [E|E]; [rewrite E in K2; cbn in K2; rewrite E; cbn; lia|].
  destruct (Z.lt_ge_cases 1 (cols l)) as [LT|GE]; [specialize (L4 LT); rewrite Z2Nat.id in K2 by lia; etransitivity; [exact K2|exact L4]|]. assert (Z.to_nat (cols l) = 0%nat) as -> by lia. cbn. lia.
Qed.
Print Assumptions c48_fits.

(** No value computed leaves the range of int, for up to 2^30 entries of at least one column
    (every caller adds a separator to the width). *)
Theorem c48_no_overflow : forall x n w pc, 0 < x < 2 ^ 31 -> 0 <= n <= 2 ^ 30 -> 1 <= w < 2 ^ 31 - 1 ->
  let c := x / (w + 1) in let c := if c =? 0 then 1 else c in let l := lay x n w pc in
  n + c - 1 < 2 ^ 31 /\ (0 < n -> w * cols l <= Z.max x w /\ (cols l - 1) * rows l + (rows l - 1) < 2 ^ 31).
Proof.
  intros x n w pc Hx Hn Hw c0 c. pose proof (lay_ok x n w pc ltac:(lia) ltac:(lia) ltac:(lia)) as LO. cbv zeta in LO. intros l. fold l in LO.
  destruct LO as [G [L1 [L0 [W [L4 L5]]]]].
  assert (C0 : 0 <= c0 /\ c0 * (w + 1) <= x).
  { subst c0. split; [apply Z.div_pos; lia|]. pose proof (Z.mul_div_le x (w + 1)). lia. }
  assert (C : 1 <= c < 2 ^ 30) by (subst c; destruct (Z.eqb_spec c0 0); [lia|]; nia).
  split; [lia|]. intros P. destruct (L1 P) as [R1 [R2 R3]]. split.
  - destruct (Z.lt_ge_cases 1 (cols l)) as [LT|GE]; [specialize (L4 LT); nia|]. assert (cols l = 1) as -> by lia. lia.
  - assert (RC : rows l * cols l <= n + c - 1 \/ rows l = n /\ cols l = 1 \/ cols l <= 1 \/ rows l * cols l <= n + c - 1).
    { unfold l, lay. cbv zeta. fold c0. fold c. set (r := (n + c - 1) / c). pose proof (Z.mul_div_le (n + c - 1) c ltac:(lia)) as M. fold r in M.
      assert (0 <= r) by (apply Z.div_pos; lia).
      destruct (pc && negb (n =? 0) && (r <? c)) eqn:B; cbn [rows cols]; [|left; lia].
      destruct (Z.ltb_spec n c) as [NC|NC]; [|left; lia]. right. right. left. assert (r * c <= n + c - 1) by lia. nia. }
    nia.
Qed.
Print Assumptions c48_no_overflow.

Example c48_ex : print_columns 20 7 5 false (fun i => [ascii_of_nat (Z.to_nat (97 + i))]) =
  [L "a     d     g    "; L "b     e     "; L "c     f     "].
Proof. vm_compute. reflexivity. Qed.
Example c48_ex_pref : print_columns 20 5 3 true (fun i => [ascii_of_nat (Z.to_nat (97 + i))]) = [L "a"; L "b"; L "c"; L "d"; L "e"].
Proof. vm_compute. reflexivity. Qed.
