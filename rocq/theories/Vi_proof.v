(** No allowed session of the line editor goes outside its buffers. *)
From Verif Require Import Base Vi_model Vi_spec.
Local Open Scope Z_scope.

Definition holds {A} (r : res A) (P : A -> Prop) : Prop :=
  match r with Ok a => P a | Oob => False | Ovf => True end.
Lemma holds_bind {A B} (r : res A) (f : A -> res B) (P : A -> Prop) (Q : B -> Prop) :
  holds r P -> (forall a, P a -> holds (f a) Q) -> holds (bind r f) Q.
Proof. destruct r; cbn; auto. Qed.
Lemma holds_mono {A} (r : res A) (P Q : A -> Prop) : holds r P -> (forall a, P a -> Q a) -> holds r Q.
Proof. destruct r; cbn; auto. Qed.
Lemma holds_int z (Q : Z -> Prop) : Q z -> holds (int z) Q.
Proof. intros. unfold int. destruct (_ && _); cbn; auto. Qed.

(** ** Byte arrays *)
Lemma rd_ok b i : 0 <= i < Z.of_nat (length b) -> exists c, rd b i = Ok c /\ In c b.
Proof.
  intros H. unfold rd. replace (i <? 0) with false by lia.
  destruct (nth_error b (Z.to_nat i)) as [c|] eqn:E.
  - exists c. split; [reflexivity|]. eapply nth_error_In; eauto.
  - apply nth_error_None in E. lia.
Qed.
Lemma splice_length b i t : (i + length t <= length b)%nat -> length (splice b i t) = length b.
Proof. intros. unfold splice. rewrite !app_length, firstn_length, skipn_length. lia. Qed.
Lemma Forall_firstn {A} (P : A -> Prop) n l : Forall P l -> Forall P (firstn n l).
Proof. rewrite !Forall_forall. intros H x Hx. apply H. rewrite <- (firstn_skipn n l). apply in_or_app; auto. Qed.
Lemma Forall_skipn {A} (P : A -> Prop) n l : Forall P l -> Forall P (skipn n l).
Proof. rewrite !Forall_forall. intros H x Hx. apply H. rewrite <- (firstn_skipn n l). apply in_or_app; auto. Qed.
Lemma splice_nocont k b i t : nocont k b -> nocont k t -> nocont k (splice b i t).
Proof.
  intros. unfold splice. apply Forall_app; split; [apply Forall_firstn; assumption|].
  apply Forall_app; split; [assumption|]. apply Forall_skipn; assumption.
Qed.

Section P.
Variable k : cfg.
Notation nc := (nocont k).

Definition good (b : cstr) : Prop := Z.of_nat (length b) = LINE /\ nc b.

Lemma wr_ok b i c : 0 <= i < Z.of_nat (length b) -> nc b -> isu8cont k c = false ->
  holds (wr b i c) (fun b' => length b' = length b /\ nc b').
Proof.
  intros H Hb Hc. unfold wr. replace ((i <? 0) || (Z.of_nat (length b) <=? i)) with false by lia. cbn. split.
  - apply splice_length. cbn. lia.
  - apply splice_nocont; [assumption|]. constructor; auto.
Qed.
Lemma move_ok dst d src s n : 0 <= n -> 0 <= d -> 0 <= s -> d + n <= Z.of_nat (length dst) ->
  s + n <= Z.of_nat (length src) -> nc dst -> nc src ->
  holds (move dst d src s n) (fun b => length b = length dst /\ nc b).
Proof.
  intros. unfold move. destruct (Z.eqb_spec n 0); [cbn; auto|].
  replace (_ || _) with false by lia. cbn. split.
  - apply splice_length. rewrite firstn_length, skipn_length. lia.
  - apply splice_nocont; [assumption|]. apply Forall_firstn, Forall_skipn. assumption.
Qed.
Lemma move_good dst d src s n : good dst -> 0 <= n -> 0 <= d -> 0 <= s -> d + n <= LINE ->
  s + n <= Z.of_nat (length src) -> nc src -> holds (move dst d src s n) good.
Proof.
  intros [Hl Hn] ? ? ? ? ? ?. eapply holds_mono; [apply move_ok; auto; lia|].
  cbn. intros b [E Hb]. split; [rewrite E|]; auto.
Qed.
Lemma wr_good b i c : good b -> 0 <= i < LINE -> isu8cont k c = false -> holds (wr b i c) good.
Proof.
  intros [Hl Hn] ? ?. eapply holds_mono; [apply wr_ok; auto; lia|].
  cbn. intros b' [E Hb]. split; [rewrite E|]; auto.
Qed.
Lemma rd_good b i : good b -> 0 <= i < LINE -> exists c, rd b i = Ok c /\ isu8cont k c = false.
Proof.
  intros [Hl Hn] H. destruct (rd_ok b i) as [c [E I]]; [lia|]. exists c. split; auto.
  unfold nocont in Hn. rewrite Forall_forall in Hn. auto.
Qed.
Ltac rdg b i := let c := fresh "c" in let E := fresh "E" in let H := fresh "Hc" in
  destruct (rd_good b i) as (c & E & H); [assumption || (eapply proj1; eassumption)|lia|rewrite E; cbn [bind holds]; rewrite ?H].

Definition Eok (e : ed) : Prop := good (buf e) /\ 0 <= cur e <= len e /\ len e < LINE.
Definition cpos (e : ed) : Prop := cur e < len e \/ cur e = 0 /\ len e = 0.

Lemma back_ok b i : good b -> 0 < i <= LINE -> back k b i = Ok (i - 1).
Proof. intros. unfold back. cbn [back_loop]. rdg b (i - 1). reflexivity. Qed.
Lemma back0_ok b i : good b -> 0 <= i <= LINE -> back0 k b i = Ok (if i =? 0 then 0 else i - 1).
Proof.
  intros. unfold back0. cbn [back0_loop]. destruct (Z.leb_spec i 0); destruct (Z.eqb_spec i 0); try lia.
  - subst; reflexivity.
  - rdg b (i - 1). reflexivity.
Qed.
Lemma fwd_ok b i : good b -> 0 <= i + 1 < LINE -> fwd k b i = Ok (i + 1).
Proof. intros. unfold fwd. cbn [fwd_loop]. rdg b (i + 1). reflexivity. Qed.
Lemma fwd0_ok b n i : good b -> 0 <= i <= n -> n < LINE -> fwd0 k b n i = Ok (if n =? i then i else i + 1).
Proof.
  intros. unfold fwd0. cbn [fwd0_loop]. destruct (Z.leb_spec n i); destruct (Z.eqb_spec n i); try lia; [reflexivity|].
  rdg b (i + 1). reflexivity.
Qed.
Lemma tback_ok b i : good b -> i < LINE -> tback k b i = Ok i.
Proof.
  intros. unfold tback. cbn [tback_loop]. destruct (Z.ltb_spec 0 i); [|reflexivity]. rdg b i. reflexivity.
Qed.

Lemma putbuf_ok src n repl e : Eok e -> 0 <= n <= Z.of_nat (length src) -> nc src ->
  holds (putbuf src n repl e) (fun '(ok, e') => Eok e' /\
    (if ok : bool then cur e' = cur e + n /\ len e <= len e' /\ (repl = false -> len e' = len e + n) else e' = e)).
Proof.
  intros (Hb & Hc & Hl) Hn Hs. unfold putbuf. destruct (Z.eqb_spec n 0) as [->|Hn0].
  - cbn. repeat split; auto; try lia; try apply Hb.
  - destruct repl.
    + destruct (Z.leb_spec LINE (cur e + n)); [cbn; repeat split; auto; try lia; apply Hb|].
      eapply holds_bind; [apply move_good; auto; lia|]. cbn beta. intros b Hg.
      cbn [holds]. unfold Eok. cbn [buf len cur]. destruct (Z.ltb_spec (len e) (cur e + n)); repeat split; try apply Hg; auto; lia.
    + destruct (Z.leb_spec LINE (len e + n)); [cbn; repeat split; auto; try lia; apply Hb|].
      eapply holds_bind; [apply move_good; auto; try lia; destruct Hb; auto; lia|]. cbn beta. intros b Hg.
      eapply holds_bind; [apply move_good; auto; lia|]. cbn beta. intros b' Hg'.
      cbn [holds]. unfold Eok. cbn [buf len cur]. repeat split; try apply Hg'; lia.
Qed.
Lemma del_ok a b e : good (buf e) -> 0 <= a <= b -> b <= len e -> len e < LINE ->
  holds (del_range a b e) (fun e' => good (buf e') /\ len e' = len e - (b - a) /\ cur e' = cur e).
Proof.
  intros Hb Ha Hl HL. unfold del_range. destruct (Z.eqb_spec (len e) b).
  - cbn. repeat split; auto; apply Hb.
  - eapply holds_bind; [apply move_good; auto; try lia; destruct Hb; auto; lia|]. intros t Ht. cbn. auto.
Qed.

(** ** Movements *)
Lemma forw_in_ok b l : good b -> 0 <= l < LINE -> forall f n sk w, -1 <= n < l ->
  (Z.to_nat (l - n) < f)%nat -> holds (forw_in f b l n sk w) (fun m => n + 1 <= m <= l).
Proof.
  intros Hb Hl. induction f; intros n sk w Hn Hf; [lia|]. cbn [forw_in].
  destruct (Z.leb_spec l (n + 1)); [cbn; lia|]. rdg b (n + 1).
  assert (I : forall sk w, holds (forw_in f b l (n + 1) sk w) (fun m => n + 1 <= m <= l)).
  { intros. eapply holds_mono; [apply IHf; lia|]. cbn. intros; lia. }
  repeat (match goal with |- holds (if ?x then _ else _) _ => destruct x | |- holds (match ?x with _ => _ end) _ => destruct x end); auto; cbn; lia.
Qed.
(** The first byte looked at does not end the word. *)
Lemma forw_first b l n f : good b -> 0 <= l < LINE -> -1 <= n -> n + 1 < l -> (Z.to_nat (l - n) < f)%nat ->
  holds (forw_in f b l n false None) (fun m => n + 2 <= m <= l).
Proof.
  intros Hb Hl Hn Hn' Hf. destruct f; [lia|]. cbn [forw_in].
  destruct (Z.leb_spec l (n + 1)); [lia|]. rdg b (n + 1).
  assert (I : forall sk w, holds (forw_in f b l (n + 1) sk w) (fun m => n + 2 <= m <= l)).
  { intros. eapply holds_mono; [apply forw_in_ok; auto; lia|]. cbn. intros; lia. }
  repeat (match goal with |- holds (if ?x then _ else _) _ => destruct x end); auto.
Qed.
Lemma forw_out_ok b l : good b -> 0 <= l < LINE -> forall f n a, 0 <= n <= l -> (Z.to_nat (l - n) < f)%nat ->
  holds (forw_out f b l n a) (fun m => n <= m <= l /\ (n < l -> a <> 0 -> n < m)).
Proof.
  intros Hb Hl. induction f; intros n a Hn Hf; [lia|]. cbn [forw_out].
  destruct (Z.leb_spec l n); [cbn; lia|]. destruct (Z.eqb_spec a 0); [cbn; lia|]. cbn [orb].
  eapply holds_bind; [apply forw_first; auto; lia|]. cbn beta. intros m Hm.
  eapply holds_mono; [apply IHf; lia|]. cbn. intros; lia.
Qed.
Lemma backw_in_ok b : nc b -> forall f n sk w, 0 <= n <= Z.of_nat (length b) -> (Z.to_nat n < f)%nat ->
  holds (backw_in f b n sk w) (fun m => 0 <= m <= n).
Proof.
  intros Hb. induction f; intros n sk w Hn Hf; [lia|]. cbn [backw_in].
  destruct (Z.leb_spec n 0); [cbn; lia|]. destruct (rd_ok b (n - 1)) as (c & E & _); [lia|]. rewrite E; cbn [bind].
  assert (I : forall sk w, holds (backw_in f b (n - 1) sk w) (fun m => 0 <= m <= n)).
  { intros. eapply holds_mono; [apply IHf; lia|]. cbn. intros; lia. }
  repeat (match goal with |- holds (if ?x then _ else _) _ => destruct x | |- holds (match ?x with _ => _ end) _ => destruct x end); auto; cbn; lia.
Qed.
Lemma backw_first b n f : nc b -> 0 < n <= Z.of_nat (length b) -> (Z.to_nat n < f)%nat ->
  holds (backw_in f b n true None) (fun m => 0 <= m < n).
Proof.
  intros Hb Hn Hf. destruct f; [lia|]. cbn [backw_in].
  destruct (Z.leb_spec n 0); [lia|]. destruct (rd_ok b (n - 1)) as (c & E & _); [lia|]. rewrite E; cbn [bind].
  assert (I : forall sk w, holds (backw_in f b (n - 1) sk w) (fun m => 0 <= m < n)).
  { intros. eapply holds_mono; [apply backw_in_ok; auto; lia|]. cbn. intros; lia. }
  repeat (match goal with |- holds (if ?x then _ else _) _ => destruct x end); auto.
Qed.
Lemma backw_out_ok b : nc b -> forall f n a, 0 <= n <= Z.of_nat (length b) -> (Z.to_nat n < f)%nat ->
  holds (backw_out f b n a) (fun m => 0 <= m <= n).
Proof.
  intros Hb. induction f; intros n a Hn Hf; [lia|]. cbn [backw_out].
  destruct (Z.leb_spec n 0); [cbn; lia|]. destruct (Z.eqb_spec a 0); [cbn; lia|]. cbn [orb].
  eapply holds_bind; [apply backw_first; auto; lia|]. cbn beta. intros m Hm.
  eapply holds_mono; [apply IHf; lia|]. cbn. intros; lia.
Qed.
Lemma backword_ok b c a : nc b -> 0 <= c <= Z.of_nat (length b) -> holds (backword b c a) (fun m => 0 <= m <= c).
Proof. intros. unfold backword. apply backw_out_ok; auto; lia. Qed.
Lemma endw_in_ok b l : good b -> 0 <= l < LINE -> forall f n sk w, -1 <= n < l ->
  (Z.to_nat (l - n) < f)%nat -> holds (endw_in f b l n sk w) (fun m => n + 1 <= m <= l).
Proof.
  intros Hb Hl. induction f; intros n sk w Hn Hf; [lia|]. cbn [endw_in].
  destruct (Z.leb_spec l (n + 1)); [cbn; lia|]. rdg b (n + 1).
  assert (I : forall sk w, holds (endw_in f b l (n + 1) sk w) (fun m => n + 1 <= m <= l)).
  { intros. eapply holds_mono; [apply IHf; lia|]. cbn. intros; lia. }
  repeat (match goal with |- holds (if ?x then _ else _) _ => destruct x | |- holds (match ?x with _ => _ end) _ => destruct x end); auto; cbn; lia.
Qed.
Lemma endw_out_ok b l : good b -> 0 <= l < LINE -> forall f n a, 0 <= n <= l -> (Z.to_nat (l - n) < f)%nat ->
  holds (endw_out f b l n a) (fun m => n <= m <= l /\ (n < l -> a <> 0 -> n < m)).
Proof.
  intros Hb Hl. induction f; intros n a Hn Hf; [lia|]. cbn [endw_out].
  destruct (Z.leb_spec l n); [cbn; lia|]. destruct (Z.eqb_spec a 0); [cbn; lia|]. cbn [orb].
  eapply holds_bind; [apply endw_in_ok; auto; lia|]. cbn beta. intros m Hm.
  eapply holds_mono; [apply IHf; lia|]. cbn. intros; lia.
Qed.
Lemma up_ok p b l : good b -> 0 <= l < LINE -> forall f n, 0 <= n <= l -> (Z.to_nat (l - n) < f)%nat ->
  holds (up f p b l n) (fun m => n <= m <= l /\ (n < l -> (forall c, rd b n = Ok c -> p c = true) -> n < m) /\
                                 (m < l -> forall c, rd b m = Ok c -> p c = false)).
Proof.
  intros Hb Hl. induction f; intros n Hn Hf; [lia|]. cbn [up]. rdg b n.
  destruct (p c) eqn:Ep; cbn [andb].
  - destruct (Z.ltb_spec n l); [|cbn; lia]. eapply holds_mono; [apply IHf; lia|]. cbn. intros m (A & B & C).
    repeat split; auto; lia.
  - cbn. split; [lia|]. split.
    + intros _ H. specialize (H c eq_refl). congruence.
    + intros _ c' E'. congruence.
Qed.
Lemma Forw_out_ok b l : good b -> 0 <= l < LINE -> forall f n a, 0 <= n <= l -> (Z.to_nat (l - n) < f)%nat ->
  holds (Forw_out f b l n a) (fun m => n <= m <= l /\ (n < l -> a <> 0 -> n < m)).
Proof.
  intros Hb Hl. induction f; intros n a Hn Hf; [lia|]. cbn [Forw_out].
  destruct (Z.leb_spec l n); [cbn; lia|]. destruct (Z.eqb_spec a 0); [cbn; lia|]. cbn [orb].
  eapply holds_bind; [apply (up_ok nonsp); auto; lia|]. cbn beta. intros m (Hm & Hm1 & Hm2).
  eapply holds_bind; [apply (up_ok isspace); auto; lia|]. cbn beta. intros m' (Hm' & Hm1' & _).
  assert (n < m').
  { destruct (Z.eq_dec n m); [|lia]. subst m. enough (n < m') by lia. apply Hm1'; [lia|].
    intros c Ec. specialize (Hm2 ltac:(lia) c Ec). unfold nonsp in Hm2. destruct (isspace c); auto. }
  eapply holds_mono; [apply IHf; lia|]. cbn. intros; lia.
Qed.
Lemma upl_ok p b l : good b -> 0 <= l < LINE -> forall f n, 0 <= n <= l -> (Z.to_nat (l - n) < f)%nat ->
  holds (upl f p b l n) (fun m => n <= m <= l).
Proof.
  intros Hb Hl. induction f; intros n Hn Hf; [lia|]. cbn [upl].
  destruct (Z.leb_spec l n); [cbn; lia|]. rdg b n. destruct (p c); [|cbn; lia].
  eapply holds_mono; [apply IHf; lia|]. cbn. intros; lia.
Qed.
Lemma Endw_out_ok b l : good b -> 0 <= l < LINE -> forall f n a, 0 <= n <= l -> (Z.to_nat (l - n) < f)%nat ->
  holds (Endw_out f b l n a) (fun m => n <= m <= l /\ (n < l -> a <> 0 -> n < m)).
Proof.
  intros Hb Hl. induction f; intros n a Hn Hf; [lia|]. cbn [Endw_out].
  destruct (Z.leb_spec l n); [cbn; lia|]. destruct (Z.eqb_spec a 0); [cbn; lia|]. cbn [orb].
  eapply holds_bind; [apply (upl_ok isspace); auto; lia|]. cbn beta. intros m Hm.
  eapply holds_bind; [apply (upl_ok nonsp); auto; lia|]. cbn beta. intros m' Hm'.
  eapply holds_mono; [apply IHf; lia|]. cbn. intros; lia.
Qed.
Lemma downl_ok p b : good b -> forall f n, -1 <= n < LINE -> (Z.to_nat (n + 1) < f)%nat ->
  holds (downl f p b n) (fun m => -1 <= m <= n).
Proof.
  intros Hb. induction f; intros n Hn Hf; [lia|]. cbn [downl].
  destruct (Z.ltb_spec n 0); [cbn; lia|]. rdg b n. destruct (p c); [|cbn; lia].
  eapply holds_mono; [apply IHf; lia|]. cbn. intros; lia.
Qed.
Lemma downl_sp b : good b -> forall n, 0 <= n < LINE ->
  forall f, (Z.to_nat (n + 1) < f)%nat ->
  holds (let! m := downl f isspace b n in downl f nonsp b m) (fun m => -1 <= m < n \/ m = n /\ False \/ -1 <= m <= n - 1).
Proof.
  intros Hb n Hn f Hf. destruct f; [lia|]. cbn [downl].
  destruct (Z.ltb_spec n 0); [lia|]. rdg b n. destruct (isspace c) eqn:Es.
  - eapply holds_bind; [apply downl_ok; auto; lia|]. cbn beta. intros m Hm.
    change (holds (downl (S f) nonsp b m) (fun m => -1 <= m < n \/ m = n /\ False \/ -1 <= m <= n - 1)).
    eapply holds_mono; [apply downl_ok; auto; lia|]. cbn. intros; lia.
  - cbn [bind]. destruct (Z.ltb_spec n 0); [lia|]. rewrite E. cbn [bind]. unfold nonsp at 1. rewrite Es. cbn [negb].
    eapply holds_mono; [apply downl_ok; auto; lia|]. cbn. intros; lia.
Qed.
Lemma bind_assoc {A B C} (r : res A) (f : A -> res B) (g : B -> res C) :
  bind (bind r f) g = bind r (fun a => bind (f a) g).
Proof. destruct r; reflexivity. Qed.
Lemma Backw_out_ok b : good b -> forall f n a, 0 <= n <= LINE -> (Z.to_nat n < f)%nat ->
  holds (Backw_out f b n a) (fun m => 0 <= m <= n).
Proof.
  intros Hb. induction f; intros n a Hn Hf; [lia|]. cbn [Backw_out].
  destruct (Z.leb_spec n 0); [cbn; lia|]. destruct (Z.eqb_spec a 0); [cbn; lia|]. cbn [orb].
  rewrite <- (bind_assoc _ (fun m => downl (S (Z.to_nat n)) nonsp b m) (fun m => Backw_out f b (m + 1) (a - 1))).
  eapply holds_bind; [apply downl_sp; auto; lia|]. cbn beta. intros m Hm.
  eapply holds_mono; [apply IHf; lia|]. cbn. intros; lia.
Qed.
Lemma find_in_ok b l ch (forw : bool) : good b -> 0 <= l < LINE -> forall f n, 0 <= n < l ->
  (Z.to_nat (if forw then l - n else n + 1) < f)%nat ->
  holds (find_in f b l n ch forw) (fun r => match r with None => True | Some m => 0 <= m < l /\ (if forw then n < m else m < n) end).
Proof.
  intros Hb Hl. induction f; intros n Hn Hf; [lia|]. cbn [find_in]. destruct forw.
  - destruct (Z.eqb_spec (n + 1) l); [cbn; auto|]. rdg b (n + 1). destruct (ceq c ch); [cbn; lia|].
    eapply holds_mono; [apply IHf; lia|]. cbn. intros [m|]; auto. lia.
  - destruct (Z.ltb_spec (n - 1) 0); [cbn; auto|]. rdg b (n - 1). destruct (ceq c ch); [cbn; lia|].
    eapply holds_mono; [apply IHf; lia|]. cbn. intros [m|]; auto. lia.
Qed.
Lemma find_out_ok b l ch (forw : bool) : good b -> 0 <= l < LINE -> forall f n cnt, 0 <= n < l ->
  (Z.to_nat (if forw then l - n else n + 1) < f)%nat ->
  holds (find_out f b l n cnt ch forw)
    (fun r => match r with None => True | Some m => 0 <= m < l /\ (if forw then n <= m /\ (cnt <> 0 -> n < m) else m <= n /\ (cnt <> 0 -> m < n)) end).
Proof.
  intros Hb Hl. induction f; intros n cnt Hn Hf; [lia|]. cbn [find_out].
  destruct (Z.eqb_spec cnt 0); [cbn; destruct forw; lia|].
  eapply holds_bind; [apply find_in_ok; auto; destruct forw; lia|]. cbn beta. intros [m|] Hm; [|cbn; auto].
  eapply holds_mono; [apply IHf; destruct forw; lia|]. cbn. intros [m'|]; auto. destruct forw; lia.
Qed.
Lemma findch_ok e ch cnt forw incl : Eok e -> cpos e -> cnt <> 0 ->
  holds (findch e ch cnt forw incl)
    (fun r => match r with None => True | Some m => 0 <= m < len e /\ (if forw then cur e <= m else m <= cur e) end).
Proof.
  intros (Hb & Hc & Hl) Hp Hcnt. unfold findch. destruct (Z.eqb_spec (len e) 0); [cbn; auto|].
  destruct Hp as [Hp|]; [|lia].
  eapply holds_bind; [apply find_out_ok; auto; try lia; destruct forw; lia|]. cbn beta. intros [m|] Hm; [|cbn; auto].
  cbn. destruct forw, incl; lia.
Qed.
Lemma left_ok b : good b -> forall f n a, 0 <= n < LINE -> (Z.to_nat n < f)%nat ->
  holds (left_loop k f b n a) (fun m => 0 <= m <= n).
Proof.
  intros Hb. induction f; intros n a Hn Hf; [lia|]. cbn [left_loop].
  destruct (Z.leb_spec n 0); [cbn; lia|]. rdg b n. destruct (a =? 0); [cbn; lia|].
  eapply holds_mono; [apply IHf; lia|]. cbn. intros; lia.
Qed.
Lemma right_ok b l : good b -> 0 <= l < LINE -> forall f n a fst, 0 <= n <= l -> (Z.to_nat (l - n) < f)%nat ->
  holds (right_loop k f b l n a fst) (fun m => n <= m <= l).
Proof.
  intros Hb Hl. induction f; intros n a fst Hn Hf; [lia|]. cbn [right_loop].
  destruct (Z.leb_spec l n); [cbn; lia|].
  replace (if fst then Ok false else let! c := rd b n in Ok (isu8cont k c)) with (Ok false : res bool).
  2: { destruct fst; [reflexivity|]. rdg b n. reflexivity. }
  cbn [bind]. destruct (a =? 0); [cbn; lia|]. eapply holds_mono; [apply IHf; lia|]. cbn. intros; lia.
Qed.
Lemma blank_ok b l : good b -> 0 <= l < LINE -> forall f n, 0 <= n -> (n < l \/ n = 0) -> (Z.to_nat (l - n) < f)%nat ->
  holds (blank_loop f b l n) (fun m => 0 <= m /\ (m < l \/ m = 0)).
Proof.
  intros Hb Hl. induction f; intros n Hn Hn' Hf; [lia|]. cbn [blank_loop].
  destruct (Z.leb_spec (l - 1) n); [cbn; lia|]. rdg b n. destruct (isspace c); [|cbn; lia].
  apply IHf; lia.
Qed.
Lemma caret_ok e : Eok e -> holds (caret e) (fun m => 0 <= m /\ (m < len e \/ m = 0)).
Proof. intros (Hb & Hc & Hl). unfold caret. apply blank_ok; auto; lia. Qed.
Lemma brk_find_ok b l : good b -> 0 <= l < LINE -> forall f n, 0 <= n <= l -> (Z.to_nat (l - n) < f)%nat ->
  holds (brk_find f b l n) (fun r => match r with None => True | Some (m, i) => n <= m < l end).
Proof.
  intros Hb Hl. induction f; intros n Hn Hf; [lia|]. cbn [brk_find].
  destruct (Z.leb_spec l n); [cbn; auto|]. rdg b n. destruct (_ =? 0); [|cbn; lia].
  eapply holds_mono; [apply IHf; lia|]. cbn. intros [[m i]|]; auto. lia.
Qed.
Lemma brk_match_ok b l i : good b -> 0 <= l < LINE -> forall f n cnt, 0 <= n < l ->
  (Z.to_nat (if (0 <? i)%Z then l - n else n + 1) < f)%nat ->
  holds (brk_match f b l n i cnt) (fun r => match r with None => True | Some m => 0 <= m < l /\ (if 0 <? i then n < m else m < n) end).
Proof.
  intros Hb Hl. destruct (0 <? i) eqn:Ei; induction f; intros n cnt Hn Hf; try lia; cbn [brk_match]; rewrite Ei.
  - destruct (Z.leb_spec l (n + 1)); [cbn; auto|]. rdg b (n + 1).
    match goal with |- holds (if ?x =? 0 then _ else _) _ => destruct (x =? 0); [cbn; lia|] end.
    eapply holds_mono; [apply IHf; lia|]. cbn. intros [m|]; auto. lia.
  - destruct (Z.ltb_spec (n - 1) 0); [cbn; auto|]. rdg b (n - 1).
    match goal with |- holds (if ?x =? 0 then _ else _) _ => destruct (x =? 0); [cbn; lia|] end.
    eapply holds_mono; [apply IHf; lia|]. cbn. intros [m|]; auto. lia.
Qed.

(** What a movement leaves alone: everything but the command and character of the last f, F, t or T. *)
Definition same_but_f (s s' : st) : Prop := s' = set_fcmd (fcmd s') (set_fch (fch s') s).
Lemma same_refl s : same_but_f s s.
Proof. destruct s; reflexivity. Qed.
Lemma same_set a b s : same_but_f s (set_fcmd a (set_fch b s)).
Proof. destruct s; reflexivity. Qed.
Lemma domove_ok a c0 c1 sub s : Eok (es s) -> cpos (es s) -> 0 <= a -> (a = 0 -> is_zerocount c0 = true) ->
  holds (domove k a c0 c1 sub s) (fun '(r, s') => same_but_f s s' /\
    match r with
    | None => True
    | Some n => 0 <= n <= len (es s) /\
        ((c0 = "w"%char \/ c0 = "W"%char) -> cur (es s) < len (es s) -> cur (es s) < n) /\
        (c0 = "%"%char -> cur (es s) < len (es s))
    end).
Proof.
  intros He Hp Ha Haz. pose proof He as (Hb & Hc & Hl). unfold domove.
  assert (W : forall r (P : Z -> Prop), holds r P -> (forall n, P n -> 0 <= n <= len (es s)) -> c0 <> "w"%char -> c0 <> "W"%char -> c0 <> "%"%char ->
     holds (let! n := r in Ok (Some n, s)) (fun '(r, s') => same_but_f s s' /\
       match r with
       | None => True
       | Some n => 0 <= n <= len (es s) /\ ((c0 = "w"%char \/ c0 = "W"%char) -> cur (es s) < len (es s) -> cur (es s) < n) /\ (c0 = "%"%char -> cur (es s) < len (es s))
       end)).
  { intros r P Hr HP A B C. eapply holds_bind; [exact Hr|]. intros n Hn. cbn. split; [apply same_refl|]. split; [auto|]. split; [intros [|]; contradiction|contradiction]. }
  assert (A1 : is_zerocount c0 = false -> a <> 0) by (intros E -> ; specialize (Haz eq_refl); congruence).
  destruct (ceq_spec c0 "b"); [subst c0|destruct (ceq_spec c0 "B"); [subst c0|]]; cbn [orb].
  - destruct (negb sub && _); [cbn; auto using same_refl|]. eapply W; [apply backword_ok; [apply Hb|destruct Hb; lia]| |discriminate..]. cbn; intros; lia.
  - destruct (negb sub && _); [cbn; auto using same_refl|]. eapply W; [apply Backw_out_ok; auto; lia| |discriminate..]. cbn; intros; lia.
  - destruct (ceq_spec c0 "e"); [subst c0|destruct (ceq_spec c0 "E"); [subst c0|]]; cbn [orb].
    1,2: destruct sub; cbn [negb andb];
      [|destruct (Z.leb_spec (len (es s)) (cur (es s) + 1)); [cbn; auto using same_refl|]].
    1,3: eapply W; [eapply holds_bind; [(apply endw_out_ok || apply Endw_out_ok); auto; lia|cbn beta; intros z Hz; cbn [holds]; instantiate (1 := fun n => 0 <= n <= len (es s)); cbn beta; lia]|auto|discriminate..].
    1,2: eapply W; [eapply holds_bind; [(apply endw_out_ok || apply Endw_out_ok); auto; lia|cbn beta; intros z Hz; specialize (A1 eq_refl); rewrite back_ok by (auto; lia); cbn [holds]; instantiate (1 := fun n => 0 <= n <= len (es s)); cbn beta; lia]|auto|discriminate..].
    destruct (mem c0 (L "fFtT,;")) eqn:Em.
    + set (s1 := if mem c0 (L "fFtT") then _ else s).
      assert (S1 : same_but_f s s1) by (unfold s1; destruct (mem c0 (L "fFtT")); [apply same_set|apply same_refl]).
      assert (N : c0 <> "w"%char /\ c0 <> "W"%char /\ c0 <> "%"%char /\ is_zerocount c0 = false).
      { apply mem_In in Em. cbn in Em. repeat (destruct Em as [<-|Em]; [repeat split; try discriminate; reflexivity|]). contradiction. }
      clearbody s1. destruct (ceq (fcmd s1) " "); [cbn; auto|].
      eapply holds_bind; [apply findch_ok; auto; apply A1, N|]. cbn beta.
      intros [z|] Hz; cbn; split; auto. destruct N as (N1 & N2 & N3 & _).
      split; [|split; [intros [|]; contradiction|contradiction]].
      destruct sub; cbn [andb]; [|lia]. match goal with |- context [if ?x then _ else _] => destruct x end; lia.
    + destruct (ceq_spec c0 "h"); [subst c0|destruct (ceq_spec c0 cH); [subst c0|]]; cbn [orb].
      1,2: destruct (negb sub && _); [cbn; auto using same_refl|]; eapply W; [apply left_ok; auto; lia| |discriminate..]; cbn; intros; lia.
      destruct (ceq_spec c0 " "); [subst c0|destruct (ceq_spec c0 "l"); [subst c0|]]; cbn [orb].
      1,2: destruct (negb sub && _); [cbn; auto using same_refl|]; eapply W; [apply right_ok; auto; lia| |discriminate..]; cbn; intros; lia.
      destruct (ceq_spec c0 "w"); [subst c0|destruct (ceq_spec c0 "W"); [subst c0|]]; cbn [orb].
      1,2: destruct (negb sub && _); [cbn; auto using same_refl|];
        eapply holds_bind; [(apply forw_out_ok || apply Forw_out_ok); auto; lia|]; cbn beta; intros z Hz; cbn; split; [apply same_refl|];
        specialize (A1 eq_refl); split; [lia|]; split; [intros; lia|discriminate].
      destruct (ceq_spec c0 "0"). { cbn. split; [apply same_refl|]. subst c0. split; [lia|]. split; [intros [|]; discriminate|discriminate]. }
      destruct (ceq_spec c0 "^"). { subst c0. eapply W; [apply caret_ok; auto| |discriminate..]. cbn; intros; lia. }
      destruct (ceq_spec c0 "|").
      { subst c0. eapply W with (P := fun n => 0 <= n <= len (es s)); [|auto|discriminate..].
        set (m := if _ =? 0 then _ else _). assert (Hm : 0 <= m <= len (es s)).
        { unfold m. destruct (Z.ltb_spec (len (es s)) a); match goal with |- context [?z =? 0] => destruct (Z.eqb_spec z 0) end; lia. }
        clearbody m. cbn [bar_loop]. rdg (buf (es s)) m. cbn. lia. }
      destruct (ceq_spec c0 "$"). { cbn. split; [apply same_refl|]. subst c0. split; [lia|]. split; [intros [|]; discriminate|discriminate]. }
      destruct (ceq_spec c0 "%"); [|cbn; auto using same_refl].
      subst c0. eapply holds_bind; [apply brk_find_ok; auto; lia|]. cbn beta. intros [[m i]|] Hm; [|cbn; auto using same_refl].
      eapply holds_bind; [apply brk_match_ok; auto; destruct (0 <? i); lia|]. cbn beta. intros [m'|] Hm'; cbn; split; auto using same_refl.
      split; [|split; [intros [|]; discriminate|lia]]. destruct sub, (0 <? i); cbn [andb]; lia.
Qed.
End P.
