(** The evaluator computes the meaning of well-formed expressions. *)
From Verif Require Import Base Num_model Num_spec Num_proof Arith_model Arith_spec Arith_tok.
From Coq Require Import Lia ZArith.
Local Open Scope Z_scope.

(** * The evaluator *)
Section Main.
Variable ar : bool.
Variable inev : list name.
Notation E p es st r := (ev (fun n => evalexpr n ar inev p es st) r).
Notation Lp p v es st r := (ev (fun n => loop n ar inev p v es st) r).
Notation IV v st r := (ev (fun n => intvar n ar inev v st) r).
Notation PP o v b es st r := (ev (fun n => do_ppmm n ar inev o v b es st) r).

Variable rd : store -> name -> option Z.
Variable P : store -> Prop.
Hypothesis Hrd : forall st x z, P st -> rd st x = Some z -> IV (OVar x) st (Val z st).

Definition readable (st : store) (v : opnd) (z : Z) : Prop :=
  match v with OTmp z' _ => z' = z | OVar x => rd st x = Some z end.
Lemma readable_iv st v z : P st -> readable st v z -> IV v st (Val z st).
Proof.
  intros HP H. destruct v as [x|z' lv]; [apply Hrd; assumption|]. cbn in H. subst z'.
  apply ev_Sc. reflexivity.
Qed.

Definition rest_ok (m : nat) (rest : list stok) : Prop :=
  match rest with
  | [] => True
  | SOp CLOSE_PAREN :: _ | SOp CTERN :: _ => True
  | SOp o :: _ => is_binop o = true /\ (m <= prec_of o)%nat
  | _ => False
  end.
Lemma rest_weaken m m' rest : (m' <= m)%nat -> rest_ok m rest -> rest_ok m' rest.
Proof. intros H. destruct rest as [|[x|s z|o] rest]; cbn; auto. destruct o; auto; intros [H1 H2]; split; auto; lia. Qed.
Lemma rest_flag m fl fl' rest es : rest_ok m rest -> at_tok ar fl rest es -> at_tok ar fl' rest es.
Proof. destruct rest as [|[x|s z|o] rest]; cbn; auto; contradiction. Qed.
Lemma at_set_na fl ts es k : at_tok ar fl ts es -> at_tok ar fl ts (set_na es k).
Proof. destruct ts as [|[x|s z|o] ts]; cbn; auto. Qed.

Definition not_pp (t : tok) : bool := match t with T_op O_PLUSPLUS | T_op O_MINUSMINUS => false | _ => true end.
Lemma rest_not_pp m fl rest es : rest_ok m rest -> at_tok ar fl rest es -> not_pp (e_tok es) = true.
Proof.
  destruct rest as [|[x|s z|o] rest]; cbn; intros H K; try contradiction.
  - rewrite K. reflexivity.
  - destruct K as [-> _]. destruct o; cbn in *; auto; destruct H; discriminate.
Qed.

Lemma loop_exit m q fl rest v es st : rest_ok m rest -> at_tok ar fl rest es -> (q < m)%nat -> Lp q v es st (Val (v, es) st).
Proof.
  intros H K Hq. apply ev_Sc. intros n. cbn [loop].
  destruct rest as [|[x|s z|o] rest]; cbn in H, K; try contradiction.
  - rewrite K. reflexivity.
  - destruct K as [-> _].
    assert (G : is_binop o && Nat.eqb (prec_of o) q = false).
    { destruct (Nat.eqb_spec (prec_of o) q) as [Eq|]; [|apply andb_false_r]. rewrite andb_true_r.
      destruct o; auto; destruct H as [H1 H2]; rewrite Eq in H2; lia. }
    rewrite G. reflexivity.
Qed.
Lemma loop_zero v es st : Lp 0 v es st (Val (v, es) st).
Proof.
  apply ev_Sc. intros n. cbn [loop].
  destruct (e_tok es) as [o| | | |]; try reflexivity.
  replace (is_binop o && Nat.eqb (prec_of o) 0) with false by (destruct o; reflexivity). reflexivity.
Qed.
Lemma zero_k es st v es' st' : E 0 es st (Val (v, es') st') -> forall r, Lp 0 v es' st' r -> E 0 es st r.
Proof. intros H r K. pose proof (ev_det _ _ _ K (loop_zero v es' st')). subst r. exact H. Qed.

Lemma eval_S p es st v es1 st1 r : E p es st (Val (v, es1) st1) -> Lp (S p) v es1 st1 r -> E (S p) es st r.
Proof.
  intros H K. eapply ev_S; [intros n; reflexivity|]. eapply ev_bnd; [exact H|]. cbv beta iota. exact K.
Qed.
Lemma eval_S_fail p es st st1 : E p es st (Fail st1) -> E (S p) es st (Fail st1).
Proof. intros H. eapply ev_S; [intros n; reflexivity|]. eapply ev_fail. exact H. Qed.

Definition runs (fl : bool) (na p : nat) (es : estate) (st : store) (rest : list stok) (z : Z) (st' : store) : Prop :=
  exists v es', readable st' v z /\ at_tok ar fl rest es' /\ e_na es' = na /\ forall r, Lp p v es' st' r -> E p es st r.
Definition meets (fl : bool) (na p : nat) (es : estate) (st : store) (rest : list stok) (o : outcome) : Prop :=
  match o with Good z st' => P st' /\ runs fl na p es st rest z st' | Bad st' => E p es st (Fail st') end.

Lemma runs_up fl na p es st rest z st' : rest_ok (S p) rest -> runs fl na p es st rest z st' -> runs fl na (S p) es st rest z st'.
Proof.
  intros Hr (v & es' & H1 & H2 & H3 & H4). exists v, es'. repeat (split; [assumption|]).
  intros r K. eapply eval_S; [|exact K]. apply H4. eapply loop_exit; [exact Hr|exact H2|lia].
Qed.
Lemma runs_climb fl na k p es st rest z st' : rest_ok (k + p) rest -> runs fl na p es st rest z st' -> runs fl na (k + p) es st rest z st'.
Proof.
  induction k as [|k IH]; intros Hr H; [exact H|]. apply runs_up; [exact Hr|]. apply IH; [|exact H].
  eapply rest_weaken; [|exact Hr]. lia.
Qed.
Lemma fail_climb k p es st st' : E p es st (Fail st') -> E (k + p) es st (Fail st').
Proof. induction k as [|k IH]; intros H; [exact H|]. apply eval_S_fail. auto. Qed.
Lemma meets_climb fl na p q es st rest o : (p <= q)%nat -> (p = q \/ rest_ok q rest) -> meets fl na p es st rest o -> meets fl na q es st rest o.
Proof.
  intros Hpq Hr H. destruct Hr as [<-|Hr]; [exact H|]. replace q with ((q - p) + p)%nat in * by lia. destruct o as [z st'|st']; cbn in *.
  - destruct H as [H1 H2]. split; [exact H1|]. apply runs_climb; assumption.
  - apply fail_climb. exact H.
Qed.

Definition rassoc (e : expr) : bool := match e with ETern _ _ _ | EAsn _ _ _ => true | _ => false end.
Definition bound (e : expr) (p : nat) : nat := if rassoc e && Nat.eqb (lvl e) p then S p else p.
Lemma bound_ge e p : (p <= bound e p)%nat.
Proof. unfold bound. destruct (_ && _); lia. Qed.
Lemma bound_le e p m : (p < m)%nat -> (bound e p <= m)%nat.
Proof. unfold bound. destruct (_ && _); lia. Qed.
Lemma bound_lvl e p : (lvl e <= p)%nat -> (bound e (lvl e) <= bound e p)%nat.
Proof. intros H. unfold bound. rewrite Nat.eqb_refl. destruct (rassoc e); cbn [andb]; [|lia]. destruct (Nat.eqb_spec (lvl e) p); lia. Qed.

(** value of a run as an operand: evalexpr p, then intvar *)
Lemma runs_val fl na p es st rest z st' : rest_ok (S p) rest -> P st' -> runs fl na p es st rest z st' ->
  exists v es', E p es st (Val (v, es') st') /\ IV v st' (Val z st') /\ at_tok ar fl rest es' /\ e_na es' = na.
Proof.
  intros Hr HP (v & es' & H1 & H2 & H3 & H4). exists v, es'. split; [|split; [apply readable_iv; assumption|auto]].
  apply H4. eapply loop_exit; [exact Hr|exact H2|lia].
Qed.

Definition is_plain (o : op) : bool := is_binop o && negb (is_assignop o) && match o with O_LAND | O_LOR | O_TERN => false | _ => true end.
Lemma loop_plain o p vl es st es1 z o2 es2 st2 zr res r :
  e_tok es = T_op o -> is_plain o = true -> prec_of o = S p -> token ar es st = Val es1 st -> IV vl st (Val z st) ->
  E p es1 st (Val (o2, es2) st2) -> IV o2 st2 (Val zr st2) -> c_binop o (e_na es2) z zr st2 = Val res st2 ->
  Lp (S p) (OTmp res false) es2 st2 r -> Lp (S p) vl es st r.
Proof.
  intros H1 H2 H3 H4 H5 H6 H7 H8 H9. eapply ev_S with (g := fun n => bnd (Val es1 st) (fun es st =>
     bnd (intvar n ar inev vl st) (fun z st => bnd (evalexpr n ar inev p es st) (fun r st => let '(o2, es) := r in
          bnd (intvar n ar inev o2 st) (fun zr st =>
          bnd (c_binop o (e_na es) z zr st) (fun res st =>
          loop n ar inev (S p) (OTmp res false) es st)))))).
  - intros n. cbn [loop]. rewrite H1, H3, Nat.eqb_refl, H4. cbn [bnd].
    assert (is_binop o = true /\ is_assignop o = false) as [-> ->] by (destruct o; cbn in H2; try discriminate; auto).
    replace (S p - 1)%nat with p by lia. cbn [andb].
    destruct o; try discriminate H2; reflexivity.
  - cbn [bnd]. eapply ev_bnd; [exact H5|]. cbv beta. eapply ev_bnd; [exact H6|]. cbv beta iota. eapply ev_bnd; [exact H7|]. cbv beta. rewrite H8. exact H9.
Qed.
Lemma loop_plain_fail2 o p vl es st es1 z st2 :
  e_tok es = T_op o -> is_plain o = true -> prec_of o = S p -> token ar es st = Val es1 st -> IV vl st (Val z st) ->
  E p es1 st (Fail st2) -> Lp (S p) vl es st (Fail st2).
Proof.
  intros H1 H2 H3 H4 H5 H6. eapply ev_S with (g := fun n => bnd (Val es1 st) (fun es st =>
     bnd (intvar n ar inev vl st) (fun z st => bnd (evalexpr n ar inev p es st) (fun r st => let '(o2, es) := r in
          bnd (intvar n ar inev o2 st) (fun zr st =>
          bnd (c_binop o (e_na es) z zr st) (fun res st =>
          loop n ar inev (S p) (OTmp res false) es st)))))).
  - intros n. cbn [loop]. rewrite H1, H3, Nat.eqb_refl, H4. cbn [bnd].
    assert (is_binop o = true /\ is_assignop o = false) as [-> ->] by (destruct o; cbn in H2; try discriminate; auto).
    replace (S p - 1)%nat with p by lia. cbn [andb].
    destruct o; try discriminate H2; reflexivity.
  - cbn [bnd]. eapply ev_bnd; [exact H5|]. cbv beta. eapply ev_fail. exact H6.
Qed.
Lemma loop_plain_fail3 o p vl es st es1 z o2 es2 st2 zr st3 :
  e_tok es = T_op o -> is_plain o = true -> prec_of o = S p -> token ar es st = Val es1 st -> IV vl st (Val z st) ->
  E p es1 st (Val (o2, es2) st2) -> IV o2 st2 (Val zr st2) -> c_binop o (e_na es2) z zr st2 = Fail st3 ->
  Lp (S p) vl es st (Fail st3).
Proof.
  intros H1 H2 H3 H4 H5 H6 H7 H8. eapply ev_S with (g := fun n => bnd (Val es1 st) (fun es st =>
     bnd (intvar n ar inev vl st) (fun z st => bnd (evalexpr n ar inev p es st) (fun r st => let '(o2, es) := r in
          bnd (intvar n ar inev o2 st) (fun zr st =>
          bnd (c_binop o (e_na es) z zr st) (fun res st =>
          loop n ar inev (S p) (OTmp res false) es st)))))).
  - intros n. cbn [loop]. rewrite H1, H3, Nat.eqb_refl, H4. cbn [bnd].
    assert (is_binop o = true /\ is_assignop o = false) as [-> ->] by (destruct o; cbn in H2; try discriminate; auto).
    replace (S p - 1)%nat with p by lia. cbn [andb].
    destruct o; try discriminate H2; reflexivity.
  - cbn [bnd]. eapply ev_bnd; [exact H5|]. cbv beta. eapply ev_bnd; [exact H6|]. cbv beta iota. eapply ev_bnd; [exact H7|]. cbv beta. rewrite H8. exists 0%nat. reflexivity.
Qed.

(** && and ||: [dec] tells whether the right operand is skipped *)
Definition land_lor (b : bool) : op := if b then O_LOR else O_LAND.
Definition ll_skip (b : bool) (z : Z) : bool := if b then negb (z =? 0) else z =? 0.
Definition ll_res (b : bool) (z zr : Z) : Z := bool_z (if b then negb (z =? 0) || negb (zr =? 0) else negb (z =? 0) && negb (zr =? 0)).
Lemma loop_ll_eq b p vl es st es1 n : e_tok es = T_op (land_lor b) -> prec_of (land_lor b) = S p -> token ar es st = Val es1 st ->
  loop (S n) ar inev (S p) vl es st = bnd (intvar n ar inev vl st) (fun z st =>
    let es := if ll_skip b z then set_na es1 (S (e_na es1)) else es1 in
    bnd (evalexpr n ar inev p es st) (fun r st => let '(o2, es) := r in
    bnd (intvar n ar inev o2 st) (fun zr st =>
    let es := if ll_skip b z then set_na es (pred (e_na es)) else es in
    loop n ar inev (S p) (OTmp (ll_res b z zr) false) es st))).
Proof.
  intros H1 H3 H4. cbn [loop]. rewrite H1, H3, Nat.eqb_refl, H4. cbn [bnd].
  replace (S p - 1)%nat with p by lia. destruct b; cbn [land_lor is_binop is_assignop andb ll_skip ll_res].
  - destruct (intvar n ar inev vl st) as [z st1| | | |]; cbn [bnd]; try reflexivity. unfold ll_res. destruct (z =? 0); reflexivity.
  - reflexivity.
Qed.

Lemma loop_tern_eq vl es st es1 n : e_tok es = T_op O_TERN -> token ar es st = Val es1 st ->
  loop (S n) ar inev 11 vl es st = bnd (intvar n ar inev vl st) (fun z st =>
          let es := if z =? 0 then set_na es1 (S (e_na es1)) else es1 in
          bnd (evalexpr n ar inev MAX_PREC es st) (fun r st => let '(v1, es) := r in
          let es := if z =? 0 then set_na es (pred (e_na es)) else es in
          match e_tok es with
          | T_op CTERN =>
            bnd (token ar es st) (fun es st =>
            let es := if z =? 0 then es else set_na es (S (e_na es)) in
            bnd (evalexpr n ar inev P_TERN es st) (fun r st => let '(v2, es) := r in
            let es := if z =? 0 then es else set_na es (pred (e_na es)) in
            loop n ar inev 11 (if z =? 0 then v2 else v1) es st))
          | _ => Fail st
          end)).
Proof. intros H1 H4. cbn [loop]. rewrite H1, H4. reflexivity. Qed.

Lemma loop_asn_eq o vl es st es1 n : e_tok es = T_op o -> is_assignop o = true -> token ar es st = Val es1 st ->
  loop (S n) ar inev 12 vl es st = bnd (match o with O_ASN => Val 0 st | _ => intvar n ar inev vl st end) (fun z st =>
          bnd (assign_check es1 (Some vl) st) (fun _ st =>
          bnd (evalexpr n ar inev P_ASSIGN es1 st) (fun r st => let '(o2, es) := r in
          bnd (intvar n ar inev o2 st) (fun zr st =>
          bnd (c_binop o (e_na es) z zr st) (fun res st =>
          bnd (assign vl res st) (fun _ st =>
          loop n ar inev 12 (OTmp res false) es st)))))).
Proof. intros H1 H2 H4. cbn [loop]. rewrite H1. destruct o; try discriminate H2; cbn [is_binop andb]; rewrite H4; reflexivity. Qed.

Definition flag (na : nat) : bool := match na with O => false | _ => true end.
Lemma token_flag ts es st : spelled ar ts (e_txt es) ->
  exists es', token ar es st = Val es' st /\ at_tok ar (flag (e_na es)) ts es' /\ e_na es' = e_na es.
Proof. apply token_ok. Qed.

Lemma runs_plain fl fl' na o p es st ts rest a st1 b st2 c :
  is_plain o = true -> prec_of o = S p -> rest_ok (S p) rest -> P st1 -> P st2 ->
  runs fl' na (S p) es st (SOp o :: ts ++ rest) a st1 ->
  (forall es1, at_tok ar (flag na) (ts ++ rest) es1 -> e_na es1 = na -> runs fl na p es1 st1 rest b st2) ->
  c_binop o na a b st2 = Val c st2 -> runs fl na (S p) es st rest c st2.
Proof.
  intros Ho Hp Hr P1 P2 (v & es1 & H1 & [H2 H2'] & H3 & H4) Hb Hc.
  destruct (token_flag _ es1 st1 H2') as (es2 & T1 & T2 & T3). rewrite H3 in T2, T3.
  destruct (runs_val _ _ _ _ _ _ _ _ Hr P2 (Hb es2 T2 T3)) as (w & es3 & E1 & E2 & E3 & E4).
  exists (OTmp c false), es3. split; [reflexivity|]. split; [assumption|]. split; [assumption|].
  intros r K. apply H4. eapply loop_plain; eauto using readable_iv. rewrite E4. exact Hc.
Qed.
Lemma fails_plain2 fl' na o p es st ts rest a st1 st2 :
  is_plain o = true -> prec_of o = S p -> P st1 ->
  runs fl' na (S p) es st (SOp o :: ts ++ rest) a st1 ->
  (forall es1, at_tok ar (flag na) (ts ++ rest) es1 -> e_na es1 = na -> E p es1 st1 (Fail st2)) ->
  E (S p) es st (Fail st2).
Proof.
  intros Ho Hp P1 (v & es1 & H1 & [H2 H2'] & H3 & H4) Hb.
  destruct (token_flag _ es1 st1 H2') as (es2 & T1 & T2 & T3). rewrite H3 in T2, T3.
  apply H4. eapply loop_plain_fail2; eauto using readable_iv.
Qed.
Lemma fails_plain3 fl fl' na o p es st ts rest a st1 b st2 st3 :
  is_plain o = true -> prec_of o = S p -> rest_ok (S p) rest -> P st1 -> P st2 ->
  runs fl' na (S p) es st (SOp o :: ts ++ rest) a st1 ->
  (forall es1, at_tok ar (flag na) (ts ++ rest) es1 -> e_na es1 = na -> runs fl na p es1 st1 rest b st2) ->
  c_binop o na a b st2 = Fail st3 -> E (S p) es st (Fail st3).
Proof.
  intros Ho Hp Hr P1 P2 (v & es1 & H1 & [H2 H2'] & H3 & H4) Hb Hc.
  destruct (token_flag _ es1 st1 H2') as (es2 & T1 & T2 & T3). rewrite H3 in T2, T3.
  destruct (runs_val _ _ _ _ _ _ _ _ Hr P2 (Hb es2 T2 T3)) as (w & es3 & E1 & E2 & E3 & E4).
  apply H4. eapply loop_plain_fail3; eauto using readable_iv. rewrite E4. exact Hc.
Qed.

(** && and || *)
Lemma runs_ll fl fl' na b p es st ts rest a st1 zr st2 :
  prec_of (land_lor b) = S p -> rest_ok (S p) rest -> P st1 -> P st2 ->
  runs fl' na (S p) es st (SOp (land_lor b) :: ts ++ rest) a st1 ->
  (forall es1, at_tok ar (flag na) (ts ++ rest) es1 -> e_na es1 = (if ll_skip b a then S na else na) ->
     runs fl (e_na es1) p es1 st1 rest zr st2) ->
  runs fl na (S p) es st rest (ll_res b a zr) st2.
Proof.
  intros Hp Hr P1 P2 (v & es1 & H1 & [H2 H2'] & H3 & H4) Hb.
  destruct (token_flag _ es1 st1 H2') as (es2 & T1 & T2 & T3). rewrite H3 in T2, T3.
  set (es2' := if ll_skip b a then set_na es2 (S (e_na es2)) else es2).
  assert (A1 : at_tok ar (flag na) (ts ++ rest) es2') by (unfold es2'; destruct (ll_skip b a); [apply at_set_na|]; assumption).
  assert (A2 : e_na es2' = if ll_skip b a then S na else na) by (unfold es2'; destruct (ll_skip b a); cbn; congruence).
  destruct (runs_val _ _ _ _ _ _ _ _ Hr P2 (Hb es2' A1 A2)) as (w & es3 & E1 & E2 & E3 & E4).
  exists (OTmp (ll_res b a zr) false), (if ll_skip b a then set_na es3 (pred (e_na es3)) else es3).
  split; [reflexivity|]. split; [destruct (ll_skip b a); [apply at_set_na|]; assumption|].
  split. { rewrite A2 in E4. destruct (ll_skip b a); cbn; rewrite ?E4; auto. }
  intros r K. apply H4. eapply ev_S; [intros n; eapply loop_ll_eq; eassumption|].
  eapply ev_bnd; [apply readable_iv; eassumption|]. cbv beta zeta. fold es2'.
  eapply ev_bnd; [exact E1|]. cbv beta iota. eapply ev_bnd; [exact E2|]. exact K.
Qed.
Lemma fails_ll fl' na b p es st ts rest a st1 st2 :
  prec_of (land_lor b) = S p -> P st1 ->
  runs fl' na (S p) es st (SOp (land_lor b) :: ts ++ rest) a st1 ->
  (forall es1, at_tok ar (flag na) (ts ++ rest) es1 -> e_na es1 = (if ll_skip b a then S na else na) ->
     E p es1 st1 (Fail st2)) ->
  E (S p) es st (Fail st2).
Proof.
  intros Hp P1 (v & es1 & H1 & [H2 H2'] & H3 & H4) Hb.
  destruct (token_flag _ es1 st1 H2') as (es2 & T1 & T2 & T3). rewrite H3 in T2, T3.
  set (es2' := if ll_skip b a then set_na es2 (S (e_na es2)) else es2).
  assert (A1 : at_tok ar (flag na) (ts ++ rest) es2') by (unfold es2'; destruct (ll_skip b a); [apply at_set_na|]; assumption).
  assert (A2 : e_na es2' = if ll_skip b a then S na else na) by (unfold es2'; destruct (ll_skip b a); cbn; congruence).
  apply H4. eapply ev_S; [intros n; eapply loop_ll_eq; eassumption|].
  eapply ev_bnd; [apply readable_iv; eassumption|]. cbv beta zeta. fold es2'.
  eapply ev_fail. apply Hb; assumption.
Qed.

(** ?: *)
Lemma runs_exit fl na p es st rest z st' : rest_ok (S p) rest -> runs fl na p es st rest z st' ->
  exists v es', E p es st (Val (v, es') st') /\ readable st' v z /\ at_tok ar fl rest es' /\ e_na es' = na.
Proof.
  intros Hr (v & es' & H1 & H2 & H3 & H4). exists v, es'. split; [|auto].
  apply H4. eapply loop_exit; [exact Hr|exact H2|lia].
Qed.
Lemma runs_tern fl fl' fla na es st ta tb rest c st1 za st2 zb st3 :
  rest_ok 12 rest -> P st1 -> P st2 ->
  runs fl' na 10 es st (SOp O_TERN :: ta ++ SOp CTERN :: tb ++ rest) c st1 ->
  (forall es1, at_tok ar (flag na) (ta ++ SOp CTERN :: tb ++ rest) es1 -> e_na es1 = (if c =? 0 then S na else na) ->
     runs fla (e_na es1) 13 es1 st1 (SOp CTERN :: tb ++ rest) za st2) ->
  (forall es1, at_tok ar (flag na) (tb ++ rest) es1 -> e_na es1 = (if c =? 0 then na else S na) ->
     runs fl (e_na es1) 11 es1 st2 rest zb st3) ->
  (c <> 0 -> st3 = st2) ->
  runs fl na 11 es st rest (if c =? 0 then zb else za) st3.
Proof.
  intros Hr P1 P2 Hc Ha Hb Hst.
  destruct (runs_val _ _ _ _ _ _ _ _ (conj eq_refl (le_n _) : rest_ok 11 (SOp O_TERN :: _)) P1 Hc) as (v & es1 & E1 & E2 & [E3 E3'] & E4).
  destruct (token_flag _ es1 st1 E3') as (es2 & T1 & T2 & T3). rewrite E4 in T2, T3.
  set (es2' := if c =? 0 then set_na es2 (S (e_na es2)) else es2).
  assert (A1 : at_tok ar (flag na) (ta ++ SOp CTERN :: tb ++ rest) es2') by (unfold es2'; destruct (c =? 0); [apply at_set_na|]; assumption).
  assert (A2 : e_na es2' = if c =? 0 then S na else na) by (unfold es2'; destruct (c =? 0); cbn; congruence).
  destruct (runs_exit _ _ _ _ _ _ _ _ (I : rest_ok 14 (SOp CTERN :: _)) (Ha es2' A1 A2)) as (va & es3 & F1 & F2 & [F3 F3'] & F4).
  set (es3' := if c =? 0 then set_na es3 (pred (e_na es3)) else es3).
  assert (G1 : e_tok es3' = T_op CTERN) by (unfold es3'; destruct (c =? 0); exact F3).
  assert (G2 : spelled ar (tb ++ rest) (e_txt es3')) by (unfold es3'; destruct (c =? 0); exact F3').
  assert (G3 : e_na es3' = na) by (unfold es3'; rewrite A2 in F4; destruct (c =? 0); cbn; rewrite F4; reflexivity).
  destruct (token_flag _ es3' st2 G2) as (es4 & U1 & U2 & U3). rewrite G3 in U2, U3.
  set (es4' := if c =? 0 then es4 else set_na es4 (S (e_na es4))).
  assert (V1 : at_tok ar (flag na) (tb ++ rest) es4') by (unfold es4'; destruct (c =? 0); [|apply at_set_na]; assumption).
  assert (V2 : e_na es4' = if c =? 0 then na else S na) by (unfold es4'; destruct (c =? 0); cbn; congruence).
  destruct (runs_exit _ _ _ _ _ _ _ _ Hr (Hb es4' V1 V2)) as (vb & es5 & W1 & W2 & W3 & W4).
  exists (if c =? 0 then vb else va), (if c =? 0 then es5 else set_na es5 (pred (e_na es5))).
  split. { destruct (c =? 0) eqn:Ec; [exact W2|]. apply Z.eqb_neq in Ec. rewrite (Hst Ec). exact F2. }
  split. { destruct (c =? 0); [|apply at_set_na]; assumption. }
  split. { rewrite V2 in W4. destruct (c =? 0); cbn; rewrite ?W4; auto. }
  intros r K. eapply eval_S; [exact E1|]. eapply ev_S; [intros n; eapply loop_tern_eq; eassumption|].
  eapply ev_bnd; [exact E2|]. cbv beta zeta. fold es2'. eapply ev_bnd; [exact F1|]. cbv beta iota zeta. fold es3'. rewrite G1, U1.
  cbn [bnd]. fold es4'. eapply ev_bnd; [exact W1|]. cbv beta iota zeta. exact K.
Qed.
Lemma fails_tern1 fl' na es st ta tb rest c st1 st2 :
  P st1 ->
  runs fl' na 10 es st (SOp O_TERN :: ta ++ SOp CTERN :: tb ++ rest) c st1 ->
  (forall es1, at_tok ar (flag na) (ta ++ SOp CTERN :: tb ++ rest) es1 -> e_na es1 = (if c =? 0 then S na else na) ->
     E 13 es1 st1 (Fail st2)) ->
  E 11 es st (Fail st2).
Proof.
  intros P1 Hc Ha.
  destruct (runs_val _ _ _ _ _ _ _ _ (conj eq_refl (le_n _) : rest_ok 11 (SOp O_TERN :: _)) P1 Hc) as (v & es1 & E1 & E2 & [E3 E3'] & E4).
  destruct (token_flag _ es1 st1 E3') as (es2 & T1 & T2 & T3). rewrite E4 in T2, T3.
  set (es2' := if c =? 0 then set_na es2 (S (e_na es2)) else es2).
  assert (A1 : at_tok ar (flag na) (ta ++ SOp CTERN :: tb ++ rest) es2') by (unfold es2'; destruct (c =? 0); [apply at_set_na|]; assumption).
  assert (A2 : e_na es2' = if c =? 0 then S na else na) by (unfold es2'; destruct (c =? 0); cbn; congruence).
  eapply eval_S; [exact E1|]. eapply ev_S; [intros n; eapply loop_tern_eq; eassumption|].
  eapply ev_bnd; [exact E2|]. cbv beta zeta. fold es2'. eapply ev_fail. apply Ha; assumption.
Qed.
Lemma fails_tern2 fl' fla na es st ta tb rest c st1 za st2 st3 :
  P st1 ->
  runs fl' na 10 es st (SOp O_TERN :: ta ++ SOp CTERN :: tb ++ rest) c st1 ->
  (forall es1, at_tok ar (flag na) (ta ++ SOp CTERN :: tb ++ rest) es1 -> e_na es1 = (if c =? 0 then S na else na) ->
     runs fla (e_na es1) 13 es1 st1 (SOp CTERN :: tb ++ rest) za st2) ->
  (forall es1, at_tok ar (flag na) (tb ++ rest) es1 -> e_na es1 = (if c =? 0 then na else S na) ->
     E 11 es1 st2 (Fail st3)) ->
  E 11 es st (Fail st3).
Proof.
  intros P1 Hc Ha Hb.
  destruct (runs_val _ _ _ _ _ _ _ _ (conj eq_refl (le_n _) : rest_ok 11 (SOp O_TERN :: _)) P1 Hc) as (v & es1 & E1 & E2 & [E3 E3'] & E4).
  destruct (token_flag _ es1 st1 E3') as (es2 & T1 & T2 & T3). rewrite E4 in T2, T3.
  set (es2' := if c =? 0 then set_na es2 (S (e_na es2)) else es2).
  assert (A1 : at_tok ar (flag na) (ta ++ SOp CTERN :: tb ++ rest) es2') by (unfold es2'; destruct (c =? 0); [apply at_set_na|]; assumption).
  assert (A2 : e_na es2' = if c =? 0 then S na else na) by (unfold es2'; destruct (c =? 0); cbn; congruence).
  destruct (runs_exit _ _ _ _ _ _ _ _ (I : rest_ok 14 (SOp CTERN :: _)) (Ha es2' A1 A2)) as (va & es3 & F1 & F2 & [F3 F3'] & F4).
  set (es3' := if c =? 0 then set_na es3 (pred (e_na es3)) else es3).
  assert (G1 : e_tok es3' = T_op CTERN) by (unfold es3'; destruct (c =? 0); exact F3).
  assert (G2 : spelled ar (tb ++ rest) (e_txt es3')) by (unfold es3'; destruct (c =? 0); exact F3').
  assert (G3 : e_na es3' = na) by (unfold es3'; rewrite A2 in F4; destruct (c =? 0); cbn; rewrite F4; reflexivity).
  destruct (token_flag _ es3' st2 G2) as (es4 & U1 & U2 & U3). rewrite G3 in U2, U3.
  set (es4' := if c =? 0 then es4 else set_na es4 (S (e_na es4))).
  assert (V1 : at_tok ar (flag na) (tb ++ rest) es4') by (unfold es4'; destruct (c =? 0); [|apply at_set_na]; assumption).
  assert (V2 : e_na es4' = if c =? 0 then na else S na) by (unfold es4'; destruct (c =? 0); cbn; congruence).
  eapply eval_S; [exact E1|]. eapply ev_S; [intros n; eapply loop_tern_eq; eassumption|].
  eapply ev_bnd; [exact E2|]. cbv beta zeta. fold es2'. eapply ev_bnd; [exact F1|]. cbv beta iota zeta. fold es3'. rewrite G1, U1.
  cbn [bnd]. fold es4'. eapply ev_fail. apply Hb; assumption.
Qed.

(** * Primaries *)
Definition post (n : nat) (r : opnd * estate) (st : store) : out (opnd * estate) :=
  let '(v, es) := r in
  match e_tok es with
  | T_op (O_PLUSPLUS as o) | T_op (O_MINUSMINUS as o) =>
    bnd (do_ppmm n ar inev o (Some v) false es st) (fun v st =>
    bnd (token ar es st) (fun es st => Val (v, es) st))
  | _ => Val (v, es) st
  end.
Lemma post_ok n v es st : not_pp (e_tok es) = true -> post n (v, es) st = Val (v, es) st.
Proof. cbn [post]. destruct (e_tok es) as [o| | | |]; try reflexivity. destruct o; try reflexivity; discriminate. Qed.
Lemma eval_un_eq u es st es1 n : e_tok es = T_op (un_of u) -> token ar es st = Val es1 st ->
  evalexpr (S n) ar inev 0 es st = bnd (bnd (evalexpr n ar inev 0 es1 st) (fun r st => let '(o1, es) := r in
          bnd (intvar n ar inev o1 st) (fun z st =>
          bnd (match u with
               | UInv => Val (- z - 1) st
               | UNot => Val (bool_z (z =? 0)) st
               | UNeg => chk (- z) st
               | UPos => Val z st end) (fun z st =>
          Val (OTmp z false, es) st)))) (post n).
Proof. intros H1 H2. cbn [evalexpr]. rewrite H1. destruct u; cbn [un_of]; rewrite H2; reflexivity. Qed.
Lemma eval_par_eq es st es1 n : e_tok es = T_op OPEN_PAREN -> token ar es st = Val es1 st ->
  evalexpr (S n) ar inev 0 es st = bnd (bnd (evalexpr n ar inev MAX_PREC es1 st) (fun r st => let '(v, es) := r in
          match e_tok es with
          | T_op CLOSE_PAREN => bnd (token ar es st) (fun es st => Val (v, es) st)
          | _ => Fail st
          end)) (post n).
Proof. intros H1 H2. cbn [evalexpr]. rewrite H1, H2. reflexivity. Qed.
Lemma eval_pre_eq i es st es1 n : e_tok es = T_op (pp i) -> token ar es st = Val es1 st ->
  evalexpr (S n) ar inev 0 es st = bnd (bnd (do_ppmm n ar inev (pp i) (e_val es1) true es1 st) (fun v st =>
          bnd (token ar es1 st) (fun es st => Val (v, es) st))) (post n).
Proof. intros H1 H2. cbn [evalexpr]. rewrite H1. destruct i; cbn [pp]; rewrite H2; reflexivity. Qed.
Lemma eval_atom_eq es st n v : e_tok es = T_VAR \/ e_tok es = T_LIT -> e_val es = Some v ->
  evalexpr (S n) ar inev 0 es st = bnd (bnd (token ar es st) (fun es' st => Val (v, es') st)) (post n).
Proof. intros [H1|H1] H2; cbn [evalexpr]; rewrite H1, H2; reflexivity. Qed.

Lemma runs_zero fl na es st rest z st' v es' : E 0 es st (Val (v, es') st') -> readable st' v z -> at_tok ar fl rest es' -> e_na es' = na ->
  runs fl na 0 es st rest z st'.
Proof. intros H1 H2 H3 H4. exists v, es'. repeat (split; [assumption|]). intros r K. eapply zero_k; eassumption. Qed.
Lemma runs_zero_inv fl na es st rest z st' : runs fl na 0 es st rest z st' ->
  exists v es', E 0 es st (Val (v, es') st') /\ readable st' v z /\ at_tok ar fl rest es' /\ e_na es' = na.
Proof. intros (v & es' & H1 & H2 & H3 & H4). exists v, es'. split; [apply H4, loop_zero|auto]. Qed.

Lemma runs_atom fl na es st rest v z : rest_ok 0 rest -> flag na = fl ->
  e_tok es = T_VAR \/ e_tok es = T_LIT -> e_val es = Some v -> spelled ar rest (e_txt es) -> e_na es = na -> readable st v z ->
  runs fl na 0 es st rest z st.
Proof.
  intros Hr Hfl Ht Hv Hs Hn Hz. destruct (token_flag _ es st Hs) as (es1 & T1 & T2 & T3). rewrite Hn, Hfl in T2.
  apply runs_zero with v es1; auto; [|congruence]. apply ev_Sc. intros n. rewrite (eval_atom_eq es st n v Ht Hv), T1. cbn [bnd].
  apply post_ok. eapply rest_not_pp; eassumption.
Qed.

Lemma runs_un fl na u es st ts rest a st1 c : rest_ok 0 rest -> P st1 -> e_tok es = T_op (un_of u) -> spelled ar (ts ++ rest) (e_txt es) -> e_na es = na ->
  (forall es1, at_tok ar (flag na) (ts ++ rest) es1 -> e_na es1 = na -> runs fl na 0 es1 st rest a st1) ->
  umath u a = Some c -> runs fl na 0 es st rest c st1.
Proof.
  intros Hr P1 Ht Hs Hn Ha Hc. destruct (token_flag _ es st Hs) as (es1 & T1 & T2 & T3). rewrite Hn in T2, T3.
  destruct (runs_zero_inv _ _ _ _ _ _ _ (Ha es1 T2 T3)) as (v & es2 & H1 & H2 & H3 & H4).
  apply runs_zero with (OTmp c false) es2; auto; [|reflexivity].
  eapply ev_S; [intros n; eapply eval_un_eq; eassumption|]. eapply ev_bnd with (a := (OTmp c false, es2)).
  - eapply ev_bnd; [exact H1|]. cbv beta iota. eapply ev_bnd; [apply readable_iv; eassumption|]. cbv beta. exists 0%nat. intros n _.
    destruct u; cbn [umath] in Hc.
    + rewrite (chk_fits _ _ _ Hc). reflexivity.
    + injection Hc as ->. reflexivity.
    + injection Hc as <-. reflexivity.
    + injection Hc as <-. unfold Z.lnot. replace (- a - 1) with (Z.pred (- a)) by lia. reflexivity.
  - exists 0%nat. intros n _. apply post_ok. eapply rest_not_pp; eassumption.
Qed.
Lemma fails_un na u es st ts rest st1 : e_tok es = T_op (un_of u) -> spelled ar (ts ++ rest) (e_txt es) -> e_na es = na ->
  (forall es1, at_tok ar (flag na) (ts ++ rest) es1 -> e_na es1 = na -> E 0 es1 st (Fail st1)) ->
  E 0 es st (Fail st1).
Proof.
  intros Ht Hs Hn Ha. destruct (token_flag _ es st Hs) as (es1 & T1 & T2 & T3). rewrite Hn in T2, T3.
  eapply ev_S; [intros n; eapply eval_un_eq; eassumption|]. apply ev_fail. apply ev_fail. apply Ha; assumption.
Qed.

Lemma runs_par fl na es st ts rest a st1 : rest_ok 0 rest -> flag na = fl -> e_tok es = T_op OPEN_PAREN -> spelled ar (ts ++ SOp CLOSE_PAREN :: rest) (e_txt es) -> e_na es = na ->
  (forall es1, at_tok ar (flag na) (ts ++ SOp CLOSE_PAREN :: rest) es1 -> e_na es1 = na -> runs fl na 13 es1 st (SOp CLOSE_PAREN :: rest) a st1) ->
  runs fl na 0 es st rest a st1.
Proof.
  intros Hr Hfl Ht Hs Hn Ha. destruct (token_flag _ es st Hs) as (es1 & T1 & T2 & T3). rewrite Hn in T2, T3.
  destruct (runs_exit _ _ _ _ _ _ _ _ (I : rest_ok 14 (SOp CLOSE_PAREN :: _)) (Ha es1 T2 T3)) as (v & es2 & F1 & F2 & [F3 F3'] & F4).
  destruct (token_flag _ es2 st1 F3') as (es3 & U1 & U2 & U3). rewrite F4, Hfl in U2.
  apply runs_zero with v es3; auto; [|congruence].
  eapply ev_S; [intros n; eapply eval_par_eq; eassumption|]. eapply ev_bnd with (a := (v, es3)).
  - eapply ev_bnd; [exact F1|]. cbv beta iota. exists 0%nat. intros n _. rewrite F3, U1. reflexivity.
  - exists 0%nat. intros n _. apply post_ok. eapply rest_not_pp; eassumption.
Qed.
Lemma fails_par na es st ts rest st1 : e_tok es = T_op OPEN_PAREN -> spelled ar (ts ++ rest) (e_txt es) -> e_na es = na ->
  (forall es1, at_tok ar (flag na) (ts ++ rest) es1 -> e_na es1 = na -> E 13 es1 st (Fail st1)) ->
  E 0 es st (Fail st1).
Proof.
  intros Ht Hs Hn Ha. destruct (token_flag _ es st Hs) as (es1 & T1 & T2 & T3). rewrite Hn in T2, T3.
  eapply ev_S; [intros n; eapply eval_par_eq; eassumption|]. apply ev_fail. apply ev_fail. apply Ha; assumption.
Qed.

(** ++ and -- *)
Definition step (i : bool) (z : Z) : Z := if i then z + 1 else z - 1.
Lemma ppmm_eq n o v b es st : do_ppmm (S n) ar inev o (Some v) b es st =
    bnd (assign_check es (Some v) st) (fun _ st =>
    bnd (intvar n ar inev v st) (fun z st =>
    bnd (chk (match o with O_PLUSPLUS => z + 1 | _ => z - 1 end) st) (fun z' st =>
    bnd (assign v z' st) (fun _ st =>
    Val (OTmp (if b then z' else to_int32 z) false) st)))).
Proof. reflexivity. Qed.
Lemma ppmm_var i x b es st z z' : e_tok es <> T_END -> v_rdonly (st x) = false -> IV (OVar x) st (Val z st) ->
  fits64 (step i z) = Some z' -> put_ok st x z' = true ->
  PP (pp i) (Some (OVar x)) b es st (Val (OTmp (if b then z' else to_int32 z) false) (put st x z')).
Proof.
  intros H1 H2 H3 H4 H5. eapply ev_S; [intros n; apply ppmm_eq|].
  assert (Hc : assign_check es (Some (OVar x)) st = Val tt st) by (unfold assign_check; rewrite H2; destruct (e_tok es); congruence).
  rewrite Hc. cbn [bnd]. eapply ev_bnd; [exact H3|]. cbv beta. exists 0%nat. intros n _.
  assert (Hs : match pp i with O_PLUSPLUS => z + 1 | _ => z - 1 end = step i z) by (destruct i; reflexivity).
  rewrite Hs, (chk_fits _ _ _ H4). cbn [bnd]. rewrite (assign_ok st x z' H5). reflexivity.
Qed.
Lemma ppmm_ro i x b es st : v_rdonly (st x) = true -> PP (pp i) (Some (OVar x)) b es st (Fail st).
Proof.
  intros H. apply ev_Sc. intros n. cbn [do_ppmm]. unfold assign_check. rewrite H. destruct (e_tok es); reflexivity.
Qed.
Lemma ppmm_dry i z b es st : e_tok es <> T_END -> z = 0 ->
  PP (pp i) (Some (OTmp z true)) b es st (Val (OTmp (if b then step i 0 else 0) false) st).
Proof.
  intros H1 ->. eapply ev_S; [intros n; apply ppmm_eq|].
  assert (Hc : assign_check es (Some (OTmp 0 true)) st = Val tt st) by (unfold assign_check; destruct (e_tok es); congruence).
  rewrite Hc. cbn [bnd]. eapply ev_bnd with (a := 0). { apply ev_Sc. reflexivity. }
  cbv beta. exists 0%nat. intros n _. destruct i, b; reflexivity.
Qed.

Lemma runs_pre fl na i es st x rest v w z st' : rest_ok 0 rest -> flag na = fl -> e_tok es = T_op (pp i) -> spelled ar (SVar x :: rest) (e_txt es) -> e_na es = na ->
  v = (if flag na then OTmp 0 true else OVar x) ->
  (forall es1, e_tok es1 <> T_END -> PP (pp i) (Some v) true es1 st (Val w st')) -> readable st' w z ->
  runs fl na 0 es st rest z st'.
Proof.
  intros Hr Hfl Ht Hs Hn Hv Hp Hz. destruct (token_flag _ es st Hs) as (es1 & T1 & (T2 & T2' & T2'') & T3). rewrite Hn in T2', T3.
  destruct (token_flag _ es1 st' T2'') as (es2 & U1 & U2 & U3). rewrite T3, Hfl in U2.
  apply runs_zero with w es2; auto; [|congruence].
  eapply ev_S; [intros n; eapply eval_pre_eq; eassumption|]. rewrite T2', <- Hv. eapply ev_bnd with (a := (w, es2)).
  - eapply ev_bnd; [apply Hp; rewrite T2; discriminate|]. cbv beta. exists 0%nat. intros n _. rewrite U1. reflexivity.
  - exists 0%nat. intros n _. apply post_ok. eapply rest_not_pp; eassumption.
Qed.
Lemma fails_pre na i es st x rest v st' : e_tok es = T_op (pp i) -> spelled ar (SVar x :: rest) (e_txt es) -> e_na es = na ->
  v = (if flag na then OTmp 0 true else OVar x) ->
  (forall es1, PP (pp i) (Some v) true es1 st (Fail st')) -> E 0 es st (Fail st').
Proof.
  intros Ht Hs Hn Hv Hp. destruct (token_flag _ es st Hs) as (es1 & T1 & (T2 & T2' & T2'') & T3). rewrite Hn in T2', T3.
  eapply ev_S; [intros n; eapply eval_pre_eq; eassumption|]. rewrite T2', <- Hv. apply ev_fail. apply ev_fail. apply Hp.
Qed.
Lemma runs_post fl na i es st rest v w z st' : rest_ok 0 rest -> flag na = fl -> e_tok es = T_VAR -> e_val es = Some v ->
  spelled ar (SOp (pp i) :: rest) (e_txt es) -> e_na es = na ->
  (forall es1, e_tok es1 <> T_END -> PP (pp i) (Some v) false es1 st (Val w st')) -> readable st' w z ->
  runs fl na 0 es st rest z st'.
Proof.
  intros Hr Hfl Ht Hv Hs Hn Hp Hz. destruct (token_flag _ es st Hs) as (es1 & T1 & (T2 & T2') & T3).
  destruct (token_flag _ es1 st' T2') as (es2 & U1 & U2 & U3). rewrite T3, Hn, Hfl in U2.
  apply runs_zero with w es2; auto; [|congruence].
  eapply ev_S; [intros n; rewrite (eval_atom_eq es st n v (or_introl Ht) Hv), T1; reflexivity|]. cbn [bnd].
  apply ev_eq with (g := fun n => bnd (do_ppmm n ar inev (pp i) (Some v) false es1 st) (fun v st =>
    bnd (token ar es1 st) (fun es st => Val (v, es) st))). { intros n. cbn [post]. rewrite T2. destruct i; reflexivity. }
  eapply ev_bnd; [apply Hp; rewrite T2; discriminate|]. cbv beta. exists 0%nat. intros n _. rewrite U1. reflexivity.
Qed.
Lemma fails_post i es st rest v st' : e_tok es = T_VAR -> e_val es = Some v ->
  spelled ar (SOp (pp i) :: rest) (e_txt es) -> (forall es1, PP (pp i) (Some v) false es1 st (Fail st')) -> E 0 es st (Fail st').
Proof.
  intros Ht Hv Hs Hp. destruct (token_flag _ es st Hs) as (es1 & T1 & (T2 & T2') & T3).
  eapply ev_S; [intros n; rewrite (eval_atom_eq es st n v (or_introl Ht) Hv), T1; reflexivity|]. cbn [bnd].
  apply ev_eq with (g := fun n => bnd (do_ppmm n ar inev (pp i) (Some v) false es1 st) (fun v st =>
    bnd (token ar es1 st) (fun es st => Val (v, es) st))). { intros n. cbn [post]. rewrite T2. destruct i; reflexivity. }
  eapply ev_fail. apply Hp.
Qed.

(** assignment *)
Lemma climb_val k p es st v es' st' fl rest : E p es st (Val (v, es') st') -> at_tok ar fl rest es' -> rest_ok (S (k + p)) rest ->
  E (k + p) es st (Val (v, es') st').
Proof.
  intros H Ha Hr. induction k as [|k IH]; [exact H|]. cbn [Nat.add].
  eapply eval_S; [apply IH; eapply rest_weaken; [|exact Hr]; lia|]. eapply loop_exit; [exact Hr|exact Ha|lia].
Qed.
Lemma toks_head e rest : exists t r, toks e ++ rest = t :: r.
Proof. revert rest. induction e; intros rest; cbn [toks app]; eauto; rewrite <- app_assoc; auto. Qed.
Lemma at_toks_end fl e rest es : at_tok ar fl (toks e ++ rest) es -> e_tok es <> T_END.
Proof. destruct (toks_head e rest) as (t & r & ->). destruct t; cbn; intros (-> & _); discriminate. Qed.

Lemma asn_target fl na es st x o e rest :
  at_tok ar fl (SVar x :: SOp (asn_of o) :: toks e ++ rest) es -> e_na es = na -> exists es1 es2,
  E 11 es st (Val (if fl then OTmp 0 true else OVar x, es1) st) /\ e_tok es1 = T_op (asn_of o) /\
  token ar es1 st = Val es2 st /\ at_tok ar (flag na) (toks e ++ rest) es2 /\ e_na es2 = na.
Proof.
  intros (H1 & H2 & H3) Hn. destruct (token_flag _ es st H3) as (es1 & T1 & T2 & T3). pose proof T2 as (T2' & T2'').
  destruct (token_flag _ es1 st T2'') as (es2 & U1 & U2 & U3). rewrite T3, Hn in U2. exists es1, es2.
  split; [|repeat split; auto; congruence].
  assert (Ho : rest_ok 12 (SOp (asn_of o) :: toks e ++ rest)) by (destruct o as [[]|]; cbn; split; reflexivity || lia).
  refine (climb_val 11 0 _ _ _ _ _ _ _ _ T2 Ho). apply ev_Sc. intros n.
  rewrite (eval_atom_eq es st n _ (or_introl H1) H2), T1. cbn [bnd]. apply post_ok. eapply rest_not_pp; eassumption.
Qed.


(** * Operands that are not evaluated *)
Definition dry_goal (e : expr) : Prop := forall lead na p es st rest z, (lvl e <= p)%nat -> rest_ok (bound e p) rest ->
  at_tok ar (negb lead) (toks e ++ rest) es -> e_na es = S na -> P st -> dry rd st lead e = Some z -> runs true (S na) p es st rest z st.
Lemma dry_climb e : (forall lead na es st rest z, rest_ok (bound e (lvl e)) rest ->
  at_tok ar (negb lead) (toks e ++ rest) es -> e_na es = S na -> P st -> dry rd st lead e = Some z ->
  runs true (S na) (lvl e) es st rest z st) -> dry_goal e.
Proof.
  intros H lead na p es st rest z Hp Hr Hat Hna HP Hd.
  refine (proj2 (meets_climb true (S na) (lvl e) p es st rest (Good z st) Hp _ (conj HP (H _ _ _ _ _ _ _ Hat Hna HP Hd)))).
  - right. eapply rest_weaken; [apply bound_ge|exact Hr].
  - eapply rest_weaken; [|exact Hr]. apply bound_lvl. exact Hp.
Qed.
Lemma bound_nr e p : rassoc e = false -> bound e p = p.
Proof. intros H. unfold bound. rewrite H. reflexivity. Qed.
Lemma lvl0_nr e : lvl e = 0%nat -> bound e 0 = 0%nat.
Proof. intros H. apply bound_nr. destruct e; try reflexivity; discriminate. Qed.
Lemma bound_left e p : (lvl e <= p)%nat -> p <> 11%nat -> p <> 12%nat -> bound e p = p.
Proof. intros H H1 H2. unfold bound. destruct e; cbn [rassoc lvl andb] in *; try reflexivity; rewrite (proj2 (Nat.eqb_neq _ p)) by congruence; reflexivity. Qed.
Lemma level_range o : (1 <= level o <= 8)%nat.
Proof. destruct o; cbn; lia. Qed.
Lemma level_prec o : prec_of (op_of o) = level o.
Proof. destruct o; reflexivity. Qed.
Lemma op_plain o : is_plain (op_of o) = true.
Proof. destruct o; reflexivity. Qed.
Lemma op_rest o q ts : (q <= level o)%nat -> rest_ok q (SOp (op_of o) :: ts).
Proof. intros H. rewrite <- level_prec in H. destruct o; cbn in *; split; auto. Qed.

Lemma dry_ok e : wf e = true -> dry_goal e.
Proof.
  induction e as [x|s z0|e IH|u e IH|i x|x i|o l IHl r IHr|l IHl r IHr|l IHl r IHr|c IHc a IHa b IHb|x o e IH|l IHl r IHr];
  intros Hwf; apply dry_climb; intros lead na es st rest z Hr Hat Hna HP Hd; cbn [lvl toks dry wf app] in *.
  - destruct Hat as (H1 & H2 & H3).
    refine (runs_atom true (S na) es st rest _ z Hr eq_refl (or_introl H1) H2 H3 Hna _).
    destruct lead; cbn in *; congruence.
  - destruct Hat as (H1 & H2 & H3). refine (runs_atom true (S na) es st rest _ z Hr eq_refl (or_intror H1) H2 H3 Hna _).
    cbn. congruence.
  - rewrite <- app_assoc in Hat. cbn [app] in Hat. destruct Hat as (H1 & H2).
    refine (runs_par true (S na) es st (toks e) rest z st Hr eq_refl H1 H2 Hna _).
    intros es1 A1 A2. apply (IH Hwf false na 13%nat); auto. { destruct e; cbn; try lia. destruct o; cbn; lia. } exact I.
  - apply andb_true_iff in Hwf. destruct Hwf as [Hwf He]. apply Nat.eqb_eq in He.
    destruct (dry rd st false e) as [a|] eqn:Ea; [|discriminate]. destruct Hat as (H1 & H2).
    refine (runs_un true (S na) u es st (toks e) rest a st z Hr HP H1 H2 Hna _ Hd).
    intros es1 A1 A2. apply (IH Hwf false na 0%nat); auto; [lia|]. rewrite lvl0_nr by assumption. exact Hr.
  - destruct Hat as (H1 & H2).
    refine (runs_pre true (S na) i es st x rest _ _ z st Hr eq_refl H1 H2 Hna eq_refl (fun es1 Ht => ppmm_dry i 0 true es1 st Ht eq_refl) _).
    cbn. injection Hd as <-. destruct i; reflexivity.
  - destruct lead; [discriminate|]. destruct Hat as (H1 & H2 & H3).
    refine (runs_post true (S na) i es st rest _ _ z st Hr eq_refl H1 H2 H3 Hna (fun es1 Ht => ppmm_dry i 0 false es1 st Ht eq_refl) _).
    cbn. congruence.
  - repeat (apply andb_true_iff in Hwf; destruct Hwf as [Hwf ?]). apply Nat.leb_le in H0. apply Nat.ltb_lt in H.
    destruct (dry rd st lead l) as [za|] eqn:Ea; [|discriminate]. destruct (dry rd st false r) as [zb|] eqn:Eb; [|discriminate].
    rewrite <- app_assoc in Hat. pose proof (level_range o) as Ho. destruct (level o) as [|k] eqn:Ek; [lia|]. change (bound _ _) with (S k) in Hr.
    refine (runs_plain true true (S na) (op_of o) k es st (toks r) rest za st zb st z (op_plain o) _ Hr HP HP _ _ _).
    + rewrite level_prec. exact Ek.
    + apply (IHl Hwf lead na (S k)); auto. rewrite bound_left by lia. apply op_rest. lia.
    + intros es1 A1 A2. apply (IHr H1 false na k); auto; [lia|]. eapply rest_weaken; [|exact Hr]. apply bound_le. lia.
    + apply (c_binop_skip false); [discriminate|assumption].
  - repeat (apply andb_true_iff in Hwf; destruct Hwf as [Hwf ?]). apply Nat.leb_le in H0. apply Nat.ltb_lt in H.
    destruct (dry rd st lead l) as [za|] eqn:Ea; [|discriminate]. destruct (dry rd st false r) as [zb|] eqn:Eb; [|discriminate].
    rewrite <- app_assoc in Hat. injection Hd as <-.
    refine (runs_ll true true (S na) false 8 es st (toks r) rest za st zb st eq_refl Hr HP HP _ _).
    + apply (IHl Hwf lead na 9%nat); auto. rewrite bound_left by lia. cbn. split; [reflexivity|lia].
    + intros es1 A1 A2. replace (e_na es1) with (S (pred (e_na es1))) by (rewrite A2; destruct (ll_skip _ _); reflexivity).
      apply (IHr H1 false); auto; [lia| |rewrite A2; destruct (ll_skip _ _); reflexivity]. eapply rest_weaken; [|exact Hr]. apply bound_le. cbn. lia.
  - repeat (apply andb_true_iff in Hwf; destruct Hwf as [Hwf ?]). apply Nat.leb_le in H0. apply Nat.ltb_lt in H.
    destruct (dry rd st lead l) as [za|] eqn:Ea; [|discriminate]. destruct (dry rd st false r) as [zb|] eqn:Eb; [|discriminate].
    rewrite <- app_assoc in Hat. injection Hd as <-.
    refine (runs_ll true true (S na) true 9 es st (toks r) rest za st zb st eq_refl Hr HP HP _ _).
    + apply (IHl Hwf lead na 10%nat); auto. rewrite bound_left by lia. cbn. split; [reflexivity|lia].
    + intros es1 A1 A2. replace (e_na es1) with (S (pred (e_na es1))) by (rewrite A2; destruct (ll_skip _ _); reflexivity).
      apply (IHr H1 false); auto; [lia| |rewrite A2; destruct (ll_skip _ _); reflexivity]. eapply rest_weaken; [|exact Hr]. apply bound_le. cbn. lia.
  - repeat (apply andb_true_iff in Hwf; destruct Hwf as [Hwf ?]). apply Nat.leb_le in H, H0.
    destruct (dry rd st lead c) as [zc|] eqn:Ec; [|discriminate]. destruct (dry rd st false a) as [za|] eqn:Ea; [|discriminate].
    destruct (dry rd st false b) as [zb|] eqn:Eb; [|discriminate]. injection Hd as <-.
    rewrite <- app_assoc in Hat. cbn [app] in Hat. rewrite <- app_assoc in Hat. change (bound _ _) with 12%nat in Hr.
    refine (runs_tern true true true (S na) es st (toks a) (toks b) rest zc st za st zb st Hr HP HP _ _ _ (fun _ => eq_refl)).
    + apply (IHc Hwf lead na 10%nat); auto. eapply rest_weaken with (m := 11%nat); [apply bound_le; lia|]. cbn. split; [reflexivity|lia].
    + intros es1 A1 A2. replace (e_na es1) with (S (pred (e_na es1))) by (rewrite A2; destruct (_ =? _); reflexivity).
      apply (IHa H2 false); auto; [destruct a as [| | | | | |[]| | | | |]; cbn; lia|exact I|rewrite A2; destruct (_ =? _); reflexivity].
    + intros es1 A1 A2. replace (e_na es1) with (S (pred (e_na es1))) by (rewrite A2; destruct (_ =? _); reflexivity).
      apply (IHb H1 false); auto; [|rewrite A2; destruct (_ =? _); reflexivity]. eapply rest_weaken; [|exact Hr]. apply bound_le. lia.
  - destruct lead; [discriminate|]. repeat (apply andb_true_iff in Hwf; destruct Hwf as [Hwf ?]). apply Nat.leb_le in H0.
    destruct (dry rd st false e) as [ze|] eqn:Ee; [|discriminate].
    destruct (asn_target (negb false) (S na) es st x o e rest Hat Hna) as (es1 & es2 & B1 & B2 & B3 & B4 & B5).
    assert (Hr' : rest_ok 13 rest) by exact Hr.
    assert (HE : runs true (S na) 12 es2 st rest ze st).
    { apply (IH Hwf false na 12%nat); auto. eapply rest_weaken; [|exact Hr']. apply bound_le. lia. }
    destruct (runs_val _ _ _ _ _ _ _ _ Hr' HP HE) as (w & es3 & E1 & E2 & E3 & E4).
    exists (OTmp z false), es3. split; [reflexivity|]. split; [assumption|]. split; [assumption|].
    intros q K. eapply eval_S; [exact B1|]. cbn [negb].
    eapply ev_S; [intros n; eapply loop_asn_eq; [exact B2|destruct o as [[]|]; reflexivity|exact B3]|].
    eapply ev_bnd with (a := 0) (st := st).
    { destruct o as [[]|]; cbn [asn_of]; try (exists 0%nat; reflexivity); apply ev_Sc; reflexivity. }
    cbv beta. assert (Hc : assign_check es2 (Some (OTmp 0 true)) st = Val tt st).
    { apply at_toks_end in B4. unfold assign_check. destruct (e_tok es2); congruence. }
    rewrite Hc. cbn [bnd]. eapply ev_bnd; [exact E1|]. cbv beta iota. eapply ev_bnd; [exact E2|]. cbv beta. rewrite E4.
    assert (Hb : c_binop (asn_of o) (S na) 0 ze st = Val z st).
    { destruct o as [o|]; [apply (c_binop_skip true); auto|]. injection Hd as <-. reflexivity. }
    rewrite Hb. exact K.
  - repeat (apply andb_true_iff in Hwf; destruct Hwf as [Hwf ?]). apply Nat.ltb_lt in H.
    destruct (dry rd st lead l) as [za|] eqn:Ea; [|discriminate]. destruct (dry rd st false r) as [zb|] eqn:Eb; [|discriminate].
    rewrite <- app_assoc in Hat. injection Hd as <-.
    refine (runs_plain true true (S na) O_COMMA 12 es st (toks r) rest za st zb st zb eq_refl eq_refl Hr HP HP _ _ eq_refl).
    + apply (IHl Hwf lead na 13%nat); auto; [destruct l as [| | | | | |[]| | | | |]; cbn; lia|].
      rewrite bound_left by (lia || (destruct l as [| | | | | |[]| | | | |]; cbn; lia)). cbn. split; [reflexivity|lia].
    + intros es1 A1 A2. apply (IHr H0 false na 12%nat); auto; [lia|]. eapply rest_weaken; [|exact Hr]. apply bound_le. cbn. lia.
Qed.

(** * Evaluation *)
Definition keeps (e : expr) : Prop := pure e = true \/ forall st x n, P st -> P (put st x n).
Definition sem_goal (e : expr) : Prop := forall p es st rest o, (lvl e <= p)%nat -> rest_ok (bound e p) rest ->
  at_tok ar false (toks e ++ rest) es -> e_na es = 0%nat -> P st -> sem rd st e = Some o -> meets false 0 p es st rest o.
Lemma sem_climb e : (forall es st rest o, rest_ok (bound e (lvl e)) rest ->
  at_tok ar false (toks e ++ rest) es -> e_na es = 0%nat -> P st -> sem rd st e = Some o ->
  meets false 0 (lvl e) es st rest o) -> sem_goal e.
Proof.
  intros H p es st rest o Hp Hr Hat Hna HP Hd.
  refine (meets_climb false 0 (lvl e) p es st rest o Hp _ (H _ _ _ _ _ Hat Hna HP Hd)).
  - right. eapply rest_weaken; [apply bound_ge|exact Hr].
  - eapply rest_weaken; [|exact Hr]. apply bound_lvl. exact Hp.
Qed.
Lemma lvl_max e : (lvl e <= 13)%nat.
Proof. destruct e as [| | | | | |[]| | | | |]; cbn; lia. Qed.
Lemma keeps_sub (e : expr) (p1 : bool) : keeps e -> (pure e = true -> p1 = true) -> p1 = true \/ forall st x n, P st -> P (put st x n).
Proof. intros [H|H] K; auto. Qed.
Lemma skip_runs e es1 st rest p (k : nat) : wf e = true -> skippable rd st e = true -> (lvl e <= p)%nat -> rest_ok (bound e p) rest ->
  at_tok ar false (toks e ++ rest) es1 -> e_na es1 = S k -> P st -> exists z, runs false (S k) p es1 st rest z st.
Proof.
  intros Hw Hs Hp Hr Ha Hn HP. unfold skippable in Hs. destruct (dry rd st true e) as [z|] eqn:Ed; [|discriminate].
  destruct (dry_ok e Hw true k p es1 st rest z Hp Hr Ha Hn HP Ed) as (v & es' & H1 & H2 & H3 & H4).
  exists z, v, es'. repeat (split; auto). eapply rest_flag; eassumption.
Qed.
Lemma to_int32_small z : (- 2 ^ 31 <=? z) && (z <? 2 ^ 31) = true -> to_int32 z = z.
Proof.
  change (- 2 ^ 31) with (-2147483648). change (2 ^ 31) with 2147483648.
  intros H. apply andb_true_iff in H. destruct H as [H1 H2]. apply Z.leb_le in H1. apply Z.ltb_lt in H2. unfold to_int32, INT_MAX.
  destruct (Z.leb_spec 0 z).
  - rewrite Z.mod_small by lia. destruct (Z.leb_spec z 2147483647); lia.
  - replace (z mod 4294967296) with (z + 4294967296).
    + destruct (Z.leb_spec (z + 4294967296) 2147483647); lia.
    + symmetry. rewrite <- (Z.mod_add z 1 4294967296) by lia. apply Z.mod_small. lia.
Qed.

Lemma sem_ok e : wf e = true -> keeps e -> sem_goal e.
Proof.
  induction e as [x|s z0|e IH|u e IH|i x|x i|o l IHl r IHr|l IHl r IHr|l IHl r IHr|c IHc a IHa b IHb|x o e IH|l IHl r IHr];
  intros Hwf HK; apply sem_climb; intros es st rest oc Hr Hat Hna HP Hd; cbn [lvl toks sem wf app] in *.
  - destruct Hat as (H1 & H2 & H3). destruct (rd st x) as [z|] eqn:Ez; [|discriminate]. injection Hd as <-. split; [exact HP|].
    exact (runs_atom false 0 es st rest _ z Hr eq_refl (or_introl H1) H2 H3 Hna Ez).
  - destruct Hat as (H1 & H2 & H3). injection Hd as <-. split; [exact HP|].
    exact (runs_atom false 0 es st rest _ z0 Hr eq_refl (or_intror H1) H2 H3 Hna eq_refl).
  - rewrite <- app_assoc in Hat. cbn [app] in Hat. destruct Hat as (H1 & H2).
    assert (G : forall es1, at_tok ar false (toks e ++ SOp CLOSE_PAREN :: rest) es1 -> e_na es1 = 0%nat -> meets false 0 13 es1 st (SOp CLOSE_PAREN :: rest) oc).
    { intros es1 A1 A2. apply (IH Hwf); auto; [apply lvl_max|exact I]. }
    destruct oc as [z st'|st'].
    + destruct (token_flag _ es st H2) as (es1 & T1 & T2 & T3). rewrite Hna in T2, T3. split; [exact (proj1 (G es1 T2 T3))|].
      refine (runs_par false 0 es st (toks e) rest z st' Hr eq_refl H1 H2 Hna _). intros es2 A1 A2. exact (proj2 (G es2 A1 A2)).
    + refine (fails_par 0 es st (toks e) _ st' H1 H2 Hna G).
  - apply andb_true_iff in Hwf. destruct Hwf as [Hwf He]. apply Nat.eqb_eq in He. destruct Hat as (H1 & H2).
    destruct (sem rd st e) as [[a st1|st1]|] eqn:Ea; cbn [obind] in Hd; [| |discriminate].
    + assert (G : forall es1, at_tok ar false (toks e ++ rest) es1 -> e_na es1 = 0%nat -> meets false 0 0 es1 st rest (Good a st1)).
      { intros es1 A1 A2. apply (IH Hwf); auto; [lia|]. rewrite lvl0_nr by assumption. exact Hr. }
      destruct (umath u a) as [z|] eqn:Eu; [|discriminate]. injection Hd as <-.
      destruct (token_flag _ es st H2) as (es1 & T1 & T2 & T3). rewrite Hna in T2, T3. pose proof (proj1 (G es1 T2 T3)) as HP1. split; [exact HP1|].
      refine (runs_un false 0 u es st (toks e) rest a st1 z Hr HP1 H1 H2 Hna _ Eu). intros es2 A1 A2. exact (proj2 (G es2 A1 A2)).
    + injection Hd as <-. refine (fails_un 0 u es st (toks e) rest st1 H1 H2 Hna _).
      intros es1 A1 A2. apply (IH Hwf HK 0%nat es1 st rest (Bad st1)); auto; [lia|]. rewrite lvl0_nr by assumption. exact Hr.
  - destruct Hat as (H1 & H2). destruct (v_rdonly (st x)) eqn:Ero.
    + injection Hd as <-. refine (fails_pre 0 i es st x rest _ st H1 H2 Hna eq_refl _). intros es1. apply ppmm_ro. exact Ero.
    + destruct (rd st x) as [z|] eqn:Ez; [|discriminate]. fold (step i z) in Hd.
      destruct (fits64 (step i z)) as [z'|] eqn:Ef; [|discriminate]. unfold put_out in Hd. destruct (put_ok st x z') eqn:Ep; [|discriminate].
      injection Hd as <-. split. { destruct HK as [HK|HK]; [discriminate|auto]. }
      refine (runs_pre false 0 i es st x rest _ _ z' _ Hr eq_refl H1 H2 Hna eq_refl (fun es1 Ht => ppmm_var i x true es1 st z z' Ht Ero (Hrd _ _ _ HP Ez) Ef Ep) _).
      reflexivity.
  - destruct Hat as (H1 & H2 & H3). destruct (v_rdonly (st x)) eqn:Ero.
    + injection Hd as <-. refine (fails_post i es st rest _ st H1 H2 H3 _). intros es1. apply ppmm_ro. exact Ero.
    + destruct (rd st x) as [z|] eqn:Ez; [|discriminate]. destruct ((- 2 ^ 31 <=? z) && (z <? 2 ^ 31)) eqn:E32; [|discriminate].
      fold (step i z) in Hd.
      assert (Ef : fits64 (step i z) = Some (step i z)).
      { unfold fits64. replace ((- 2 ^ 63 <=? step i z) && (step i z <? 2 ^ 63)) with true; [reflexivity|].
        apply andb_true_iff in E32. destruct E32 as [E1 E2]. apply Z.leb_le in E1. apply Z.ltb_lt in E2.
        symmetry. apply andb_true_iff. rewrite Z.leb_le, Z.ltb_lt. unfold step. destruct i; lia. }
      unfold put_out in Hd. destruct (put_ok st x (step i z)) eqn:Ep; [|discriminate].
      injection Hd as <-. split. { destruct HK as [HK|HK]; [discriminate|auto]. }
      refine (runs_post false 0 i es st rest _ _ z _ Hr eq_refl H1 H2 H3 Hna (fun es1 Ht => ppmm_var i x false es1 st z _ Ht Ero (Hrd _ _ _ HP Ez) Ef Ep) _).
      cbn. apply to_int32_small. exact E32.
  - repeat (apply andb_true_iff in Hwf; destruct Hwf as [Hwf ?]). apply Nat.leb_le in H0. apply Nat.ltb_lt in H.
    assert (KL : keeps l) by (apply (keeps_sub _ _ HK); cbn; intros G; apply andb_true_iff in G; apply G).
    assert (KR : keeps r) by (apply (keeps_sub _ _ HK); cbn; intros G; apply andb_true_iff in G; apply G).
    rewrite <- app_assoc in Hat. pose proof (level_range o) as Ho. destruct (level o) as [|k] eqn:Ek; [lia|].
    change (bound _ _) with (S k) in Hr. cbn [app] in Hat.
    destruct (sem rd st l) as [[za st1|st1]|] eqn:Ea; cbn [obind] in Hd; [| |discriminate].
    2:{ injection Hd as <-. apply (IHl Hwf KL (S k) es st (SOp (op_of o) :: toks r ++ rest) (Bad st1)); auto. rewrite bound_left by lia. apply op_rest. lia. }
    assert (ML : P st1 /\ runs false 0 (S k) es st (SOp (op_of o) :: toks r ++ rest) za st1).
    { apply (IHl Hwf KL (S k) es st _ (Good za st1)); auto. rewrite bound_left by lia. apply op_rest. lia. }
    destruct ML as [HP1 RL].
    assert (MR : forall oc', sem rd st1 r = Some oc' -> forall es1, at_tok ar (flag 0) (toks r ++ rest) es1 -> e_na es1 = 0%nat -> meets false 0 k es1 st1 rest oc').
    { intros oc' Eo es1 A1 A2. apply (IHr H1 KR); auto; [lia|]. eapply rest_weaken; [|exact Hr]. apply bound_le. lia. }
    destruct (sem rd st1 r) as [[zb st2|st2]|] eqn:Eb; cbn [obind] in Hd; [| |discriminate].
    2:{ injection Hd as <-. refine (fails_plain2 false 0 (op_of o) k es st (toks r) rest za st1 st2 (op_plain o) _ HP1 RL (MR _ eq_refl)). rewrite level_prec. exact Ek. }
    assert (HP2 : P st2).
    { destruct RL as (v & es1 & _ & [_ A2] & A3 & _). destruct (token_flag _ es1 st1 A2) as (es2 & _ & T2 & T3). rewrite A3 in *. exact (proj1 (MR _ eq_refl es2 T2 T3)). }
    unfold calc_out in Hd. destruct (math o za zb) as [z| |] eqn:Em; [| |discriminate]; injection Hd as <-.
    + split; [exact HP2|].
      refine (runs_plain false false 0 (op_of o) k es st (toks r) rest za st1 zb st2 z (op_plain o) _ Hr HP1 HP2 RL _ _).
      * rewrite level_prec. exact Ek.
      * intros es1 A1 A2. exact (proj2 (MR _ eq_refl es1 A1 A2)).
      * apply (c_binop_ok false); [discriminate|assumption].
    + refine (fails_plain3 false false 0 (op_of o) k es st (toks r) rest za st1 zb st2 st2 (op_plain o) _ Hr HP1 HP2 RL _ _).
      * rewrite level_prec. exact Ek.
      * intros es1 A1 A2. exact (proj2 (MR _ eq_refl es1 A1 A2)).
      * apply (c_binop_zero false); [discriminate|assumption].
  - repeat (apply andb_true_iff in Hwf; destruct Hwf as [Hwf ?]). apply Nat.leb_le in H0. apply Nat.ltb_lt in H.
    assert (KL : keeps l) by (apply (keeps_sub _ _ HK); cbn; intros G; apply andb_true_iff in G; apply G).
    assert (KR : keeps r) by (apply (keeps_sub _ _ HK); cbn; intros G; apply andb_true_iff in G; apply G).
    rewrite <- app_assoc in Hat. change (bound _ _) with 9%nat in Hr. cbn [app] in Hat.
    destruct (sem rd st l) as [[za st1|st1]|] eqn:Ea; cbn [obind] in Hd; [| |discriminate].
    2:{ injection Hd as <-. apply (IHl Hwf KL 9%nat es st (SOp O_LAND :: toks r ++ rest) (Bad st1)); auto. rewrite bound_left by lia. cbn. split; [reflexivity|lia]. }
    assert (ML : P st1 /\ runs false 0 9 es st (SOp O_LAND :: toks r ++ rest) za st1).
    { apply (IHl Hwf KL 9%nat es st _ (Good za st1)); auto. rewrite bound_left by lia. cbn. split; [reflexivity|lia]. }
    destruct ML as [HP1 RL].
    assert (Hrr : rest_ok (bound r 8) rest) by (eapply rest_weaken; [|exact Hr]; apply bound_le; lia).
    destruct (za =? 0) eqn:Ez.
    + destruct (skippable rd st1 r) eqn:Es; [|discriminate]. injection Hd as <-. split; [exact HP1|].
      destruct (RL) as (v & es1 & _ & [_ A2] & A3 & _). destruct (token_flag _ es1 st1 A2) as (es2 & _ & T2 & T3). rewrite A3 in *.
      assert (exists z, dry rd st1 true r = Some z) as [zr Er] by (unfold skippable in Es; destruct (dry rd st1 true r); [eauto|discriminate]).
      assert (Hll : ll_res false za zr = 0) by (unfold ll_res; rewrite Ez; reflexivity). rewrite <- Hll.
      refine (runs_ll false false 0 false 8 es st (toks r) rest za st1 zr st1 eq_refl Hr HP1 HP1 RL _).
      intros es3 B1 B2. cbn [ll_skip] in B2. rewrite Ez in B2. rewrite B2.
      destruct (dry_ok r H1 true 0%nat 8%nat es3 st1 rest zr ltac:(lia) Hrr B1 B2 HP1 Er) as (w & es4 & C1 & C2 & C3 & C4).
      exists w, es4. repeat (split; auto). eapply rest_flag; eassumption.
    + assert (MR : forall oc', sem rd st1 r = Some oc' -> forall es1, at_tok ar (flag 0) (toks r ++ rest) es1 -> e_na es1 = 0%nat -> meets false 0 8 es1 st1 rest oc').
      { intros oc' Eo es1 A1 A2. apply (IHr H1 KR); auto; lia. }
      destruct (sem rd st1 r) as [[zb st2|st2]|] eqn:Eb; cbn [obind] in Hd; [| |discriminate].
      2:{ injection Hd as <-. refine (fails_ll false 0 false 8 es st (toks r) rest za st1 st2 eq_refl HP1 RL _).
          intros es1 A1 A2. cbn [ll_skip] in A2. rewrite Ez in A2. exact (MR _ eq_refl es1 A1 A2). }
      assert (HP2 : P st2).
      { destruct RL as (v & es1 & _ & [_ A2] & A3 & _). destruct (token_flag _ es1 st1 A2) as (es2 & _ & T2 & T3). rewrite A3 in *. exact (proj1 (MR _ eq_refl es2 T2 T3)). }
      injection Hd as <-. split; [exact HP2|].
      assert (Hll : ll_res false za zb = truth (negb (zb =? 0))) by (unfold ll_res; rewrite Ez; reflexivity). rewrite <- Hll.
      refine (runs_ll false false 0 false 8 es st (toks r) rest za st1 zb st2 eq_refl Hr HP1 HP2 RL _).
      intros es1 A1 A2. cbn [ll_skip] in A2. rewrite Ez in A2. rewrite A2. exact (proj2 (MR _ eq_refl es1 A1 A2)).
  - repeat (apply andb_true_iff in Hwf; destruct Hwf as [Hwf ?]). apply Nat.leb_le in H0. apply Nat.ltb_lt in H.
    assert (KL : keeps l) by (apply (keeps_sub _ _ HK); cbn; intros G; apply andb_true_iff in G; apply G).
    assert (KR : keeps r) by (apply (keeps_sub _ _ HK); cbn; intros G; apply andb_true_iff in G; apply G).
    rewrite <- app_assoc in Hat. change (bound _ _) with 10%nat in Hr. cbn [app] in Hat.
    destruct (sem rd st l) as [[za st1|st1]|] eqn:Ea; cbn [obind] in Hd; [| |discriminate].
    2:{ injection Hd as <-. apply (IHl Hwf KL 10%nat es st (SOp O_LOR :: toks r ++ rest) (Bad st1)); auto. rewrite bound_left by lia. cbn. split; [reflexivity|lia]. }
    assert (ML : P st1 /\ runs false 0 10 es st (SOp O_LOR :: toks r ++ rest) za st1).
    { apply (IHl Hwf KL 10%nat es st _ (Good za st1)); auto. rewrite bound_left by lia. cbn. split; [reflexivity|lia]. }
    destruct ML as [HP1 RL].
    assert (Hrr : rest_ok (bound r 9) rest) by (eapply rest_weaken; [|exact Hr]; apply bound_le; lia).
    destruct (za =? 0) eqn:Ez.
    + assert (MR : forall oc', sem rd st1 r = Some oc' -> forall es1, at_tok ar (flag 0) (toks r ++ rest) es1 -> e_na es1 = 0%nat -> meets false 0 9 es1 st1 rest oc').
      { intros oc' Eo es1 A1 A2. apply (IHr H1 KR); auto; lia. }
      destruct (sem rd st1 r) as [[zb st2|st2]|] eqn:Eb; cbn [obind] in Hd; [| |discriminate].
      2:{ injection Hd as <-. refine (fails_ll false 0 true 9 es st (toks r) rest za st1 st2 eq_refl HP1 RL _).
          intros es1 A1 A2. cbn [ll_skip] in A2. rewrite Ez in A2. exact (MR _ eq_refl es1 A1 A2). }
      assert (HP2 : P st2).
      { destruct RL as (v & es1 & _ & [_ A2] & A3 & _). destruct (token_flag _ es1 st1 A2) as (es2 & _ & T2 & T3). rewrite A3 in *. exact (proj1 (MR _ eq_refl es2 T2 T3)). }
      injection Hd as <-. split; [exact HP2|].
      assert (Hll : ll_res true za zb = truth (negb (zb =? 0))) by (unfold ll_res; rewrite Ez; reflexivity). rewrite <- Hll.
      refine (runs_ll false false 0 true 9 es st (toks r) rest za st1 zb st2 eq_refl Hr HP1 HP2 RL _).
      intros es1 A1 A2. cbn [ll_skip] in A2. rewrite Ez in A2. cbn [negb] in A2. rewrite A2. exact (proj2 (MR _ eq_refl es1 A1 A2)).
    + destruct (skippable rd st1 r) eqn:Es; [|discriminate]. injection Hd as <-. split; [exact HP1|].
      assert (exists z, dry rd st1 true r = Some z) as [zr Er] by (unfold skippable in Es; destruct (dry rd st1 true r); [eauto|discriminate]).
      assert (Hll : ll_res true za zr = 1) by (unfold ll_res; rewrite Ez; reflexivity). rewrite <- Hll.
      refine (runs_ll false false 0 true 9 es st (toks r) rest za st1 zr st1 eq_refl Hr HP1 HP1 RL _).
      intros es3 B1 B2. cbn [ll_skip] in B2. rewrite Ez in B2. cbn [negb] in B2. rewrite B2.
      destruct (dry_ok r H1 true 0%nat 9%nat es3 st1 rest zr ltac:(lia) Hrr B1 B2 HP1 Er) as (w & es4 & C1 & C2 & C3 & C4).
      exists w, es4. repeat (split; auto). eapply rest_flag; eassumption.
  - repeat (apply andb_true_iff in Hwf; destruct Hwf as [Hwf ?]). apply Nat.leb_le in H, H0.
    assert (KC : keeps c) by (apply (keeps_sub _ _ HK); cbn; intros G; repeat (apply andb_true_iff in G; destruct G as [G ?]); assumption).
    assert (KA : keeps a) by (apply (keeps_sub _ _ HK); cbn; intros G; repeat (apply andb_true_iff in G; destruct G as [G ?]); assumption).
    assert (KB : keeps b) by (apply (keeps_sub _ _ HK); cbn; intros G; repeat (apply andb_true_iff in G; destruct G as [G ?]); assumption).
    rewrite <- app_assoc in Hat. cbn [app] in Hat. rewrite <- app_assoc in Hat. cbn [app] in Hat. change (bound _ _) with 12%nat in Hr.
    set (rc := SOp O_TERN :: toks a ++ SOp CTERN :: toks b ++ rest) in *.
    assert (Rc : rest_ok 11 rc) by (cbn; split; [reflexivity|lia]).
    assert (Rc' : rest_ok (bound c 10) rc) by (eapply rest_weaken; [|exact Rc]; apply bound_le; lia).
    assert (Rb : rest_ok (bound b 11) rest) by (eapply rest_weaken; [|exact Hr]; apply bound_le; lia).
    destruct (sem rd st c) as [[zc st1|st1]|] eqn:Ec; cbn [obind] in Hd; [| |discriminate].
    2:{ injection Hd as <-. refine (fail_climb 1 10 es st st1 _). exact (IHc Hwf KC 10%nat es st rc (Bad st1) H0 Rc' Hat Hna HP Ec). }
    destruct (IHc Hwf KC 10%nat es st rc (Good zc st1) H0 Rc' Hat Hna HP Ec) as [HP1 RC].
    assert (DRY : forall e p st2 rs, wf e = true -> skippable rd st2 e = true -> (lvl e <= p)%nat -> rest_ok (bound e p) rs -> P st2 ->
       exists z, forall es1, at_tok ar false (toks e ++ rs) es1 -> e_na es1 = 1%nat -> runs false (e_na es1) p es1 st2 rs z st2).
    { intros e p st2 rs We Se Le Re Pe. unfold skippable in Se. destruct (dry rd st2 true e) as [z|] eqn:Ed; [|discriminate]. exists z.
      intros es1 A1 A2. rewrite A2. destruct (dry_ok e We true 0%nat p es1 st2 rs z Le Re A1 A2 Pe Ed) as (w & es4 & C1 & C2 & C3 & C4).
      exists w, es4. repeat (split; auto). eapply rest_flag; eassumption. }
    assert (Ra : rest_ok (bound a 13) (SOp CTERN :: toks b ++ rest)) by exact I.
    destruct (zc =? 0) eqn:Ez.
    + destruct (skippable rd st1 a) eqn:Es; [|discriminate].
      destruct (DRY a 13%nat st1 (SOp CTERN :: toks b ++ rest) H2 Es (lvl_max a) Ra HP1) as [za Ha].
      assert (MB : forall es1, at_tok ar (flag 0) (toks b ++ rest) es1 -> e_na es1 = 0%nat -> meets false 0 11 es1 st1 rest oc).
      { intros es1 A1 A2. apply (IHb H1 KB); auto. }
      destruct oc as [zb st3|st3].
      * assert (HP3 : P st3).
        { destruct (runs_exit _ _ _ _ _ _ _ _ Rc RC) as (v & es1 & _ & _ & [_ A2] & A3).
          destruct (token_flag _ es1 st1 A2) as (es2 & _ & T2 & T3). rewrite A3 in *.
          destruct (runs_exit _ _ _ _ _ _ _ _ (I : rest_ok 14 (SOp CTERN :: toks b ++ rest)) (Ha (set_na es2 1) (at_set_na _ _ _ _ T2) eq_refl)) as (v3 & es3 & _ & _ & [_ B2] & B3).
          destruct (token_flag _ (set_na es3 0) st1 B2) as (es4 & _ & U2 & U3). exact (proj1 (MB es4 U2 U3)). }
        split; [exact HP3|]. replace zb with (if zc =? 0 then zb else za) by (rewrite Ez; reflexivity).
        refine (runs_tern false false false 0 es st (toks a) (toks b) rest zc st1 za st1 zb st3 Hr HP1 HP1 RC _ _ _).
        { intros es1 A1 A2. rewrite Ez in A2. exact (Ha es1 A1 A2). }
        { intros es1 A1 A2. rewrite Ez in A2. rewrite A2. exact (proj2 (MB es1 A1 A2)). }
        { intros G. apply Z.eqb_eq in Ez. contradiction. }
      * refine (fails_tern2 false false 0 es st (toks a) (toks b) rest zc st1 za st1 st3 HP1 RC _ _).
        { intros es1 A1 A2. rewrite Ez in A2. exact (Ha es1 A1 A2). }
        { intros es1 A1 A2. rewrite Ez in A2. exact (MB es1 A1 A2). }
    + assert (MA : forall oc', sem rd st1 a = Some oc' -> forall es1, at_tok ar (flag 0) (toks a ++ SOp CTERN :: toks b ++ rest) es1 -> e_na es1 = 0%nat ->
         meets false 0 13 es1 st1 (SOp CTERN :: toks b ++ rest) oc').
      { intros oc' Eo es1 A1 A2. apply (IHa H2 KA); auto. apply lvl_max. }
      destruct (sem rd st1 a) as [[za st2|st2]|] eqn:Ea; cbn [obind] in Hd; [| |discriminate].
      2:{ injection Hd as <-. refine (fails_tern1 false 0 es st (toks a) (toks b) rest zc st1 st2 HP1 RC _).
          intros es1 A1 A2. rewrite Ez in A2. exact (MA _ eq_refl es1 A1 A2). }
      assert (HP2 : P st2).
      { destruct (runs_exit _ _ _ _ _ _ _ _ Rc RC) as (v & es1 & _ & _ & [_ A2] & A3).
        destruct (token_flag _ es1 st1 A2) as (es2 & _ & T2 & T3). rewrite A3 in *. exact (proj1 (MA _ eq_refl es2 T2 T3)). }
      destruct (skippable rd st2 b) eqn:Es; [|discriminate]. injection Hd as <-. split; [exact HP2|].
      destruct (DRY b 11%nat st2 rest H1 Es H Rb HP2) as [zb Hb].
      replace za with (if zc =? 0 then zb else za) by (rewrite Ez; reflexivity).
      refine (runs_tern false false false 0 es st (toks a) (toks b) rest zc st1 za st2 zb st2 Hr HP1 HP2 RC _ _ (fun _ => eq_refl)).
      { intros es1 A1 A2. rewrite Ez in A2. rewrite A2. exact (proj2 (MA _ eq_refl es1 A1 A2)). }
      { intros es1 A1 A2. rewrite Ez in A2. exact (Hb es1 A1 A2). }
  - repeat (apply andb_true_iff in Hwf; destruct Hwf as [Hwf ?]). apply Nat.leb_le in H0.
    assert (KP : forall st x n, P st -> P (put st x n)) by (destruct HK as [HK|HK]; [discriminate|exact HK]).
    change (bound _ _) with 13%nat in Hr.
    destruct (asn_target false 0 es st x o e rest Hat Hna) as (es1 & es2 & B1 & B2 & B3 & B4 & B5). cbv iota in B1.
    assert (Hre : rest_ok (bound e 12) rest) by (eapply rest_weaken; [|exact Hr]; apply bound_le; lia).
    assert (ME : forall oc', sem rd st e = Some oc' -> meets false 0 12 es2 st rest oc').
    { intros oc' Eo. apply (IH Hwf (or_intror KP)); auto. }
    assert (Hia : is_assignop (asn_of o) = true) by (destruct o as [[]|]; reflexivity).
    assert (Hend := at_toks_end _ _ _ _ B4).
    (* the left value, as the code reads it *)
    assert (Hlow : forall zl q, (o = None /\ zl = 0 \/ exists o', o = Some o' /\ rd st x = Some zl) ->
       (ev (fun n => bnd (assign_check es2 (Some (OVar x)) st) (fun _ st =>
          bnd (evalexpr n ar inev P_ASSIGN es2 st) (fun r st => let '(o2, es) := r in
          bnd (intvar n ar inev o2 st) (fun zr st =>
          bnd (c_binop (asn_of o) (e_na es) zl zr st) (fun res st =>
          bnd (assign (OVar x) res st) (fun _ st =>
          loop n ar inev 12 (OTmp res false) es st)))))) q) -> E 12 es st q).
    { intros zl q Hz Hq. eapply eval_S; [exact B1|]. eapply ev_S; [intros n; eapply loop_asn_eq; [exact B2|exact Hia|exact B3]|].
      eapply ev_bnd with (a := zl) (st := st); [|exact Hq].
      destruct Hz as [[-> ->]|(o' & -> & Hz)]; [exists 0%nat; reflexivity|].
      apply ev_eq with (g := fun n => intvar n ar inev (OVar x) st); [|apply Hrd; assumption].
      intros n. destruct o'; try discriminate H; reflexivity. }
    assert (Hac : assign_check es2 (Some (OVar x)) st = if v_rdonly (st x) then Fail st else Val tt st).
    { unfold assign_check. destruct (e_tok es2); congruence. }
    assert (HRO : v_rdonly (st x) = true -> (exists zl, o = None /\ zl = 0 \/ exists o', o = Some o' /\ rd st x = Some zl) -> E 12 es st (Fail st)).
    { intros Ero [zl Hz]. apply (Hlow zl _ Hz). rewrite Hac, Ero. exists 0%nat. reflexivity. }
    assert (HBAD : forall st1, v_rdonly (st x) = false -> (exists zl, o = None /\ zl = 0 \/ exists o', o = Some o' /\ rd st x = Some zl) ->
       sem rd st e = Some (Bad st1) -> E 12 es st (Fail st1)).
    { intros st1 Ero [zl Hz] Eo. apply (Hlow zl _ Hz). rewrite Hac, Ero. cbn [bnd]. apply ev_fail. exact (ME _ Eo). }
    assert (HGOOD : forall zl zr st1 res, v_rdonly (st x) = false -> (o = None /\ zl = 0 \/ exists o', o = Some o' /\ rd st x = Some zl) ->
       sem rd st e = Some (Good zr st1) -> c_binop (asn_of o) 0 zl zr st1 = Val res st1 -> put_ok st1 x res = true ->
       meets false 0 12 es st rest (Good res (put st1 x res))).
    { intros zl zr st1 res Ero Hz Eo Hc Hput. destruct (ME _ Eo) as [HP1 R1]. split; [auto|].
      destruct (runs_val _ _ _ _ _ _ _ _ Hr HP1 R1) as (w & es3 & E1 & E2 & E3 & E4).
      exists (OTmp res false), es3. split; [reflexivity|]. split; [assumption|]. split; [assumption|].
      intros q K. apply (Hlow zl _ Hz). rewrite Hac, Ero. cbn [bnd]. eapply ev_bnd; [exact E1|]. cbv beta iota.
      eapply ev_bnd; [exact E2|]. cbv beta. rewrite E4, Hc. cbn [bnd]. rewrite (assign_ok _ _ _ Hput). exact K. }
    destruct o as [o|].
    + destruct (rd st x) as [zl|] eqn:Ex; [|discriminate].
      assert (Hz : Some o = None /\ zl = 0 \/ exists o', Some o = Some o' /\ Some zl = Some zl) by (right; eauto).
      destruct (v_rdonly (st x)) eqn:Ero. { injection Hd as <-. apply HRO; eauto. }
      destruct (sem rd st e) as [[zr st1|st1]|] eqn:Eo; cbn [obind] in Hd; [| |discriminate].
      2:{ injection Hd as <-. apply HBAD; eauto. }
      unfold calc_out in Hd. destruct (math o zl zr) as [z| |] eqn:Em; cbn [obind] in Hd; [| |discriminate].
      * unfold put_out in Hd. destruct (put_ok st1 x z) eqn:Ep; [|discriminate]. injection Hd as <-.
        apply (HGOOD zl zr st1 z eq_refl Hz eq_refl); [|exact Ep]. apply (c_binop_ok true); auto.
      * injection Hd as <-. destruct (ME _ eq_refl) as [HP1 R1].
        destruct (runs_val _ _ _ _ _ _ _ _ Hr HP1 R1) as (w & es3 & E1 & E2 & E3 & E4).
        apply (Hlow zl _ Hz). rewrite Hac. cbn [bnd]. eapply ev_bnd; [exact E1|]. cbv beta iota.
        eapply ev_bnd; [exact E2|]. cbv beta. rewrite E4. change (asn_of (Some o)) with (as_op true o).
        rewrite (c_binop_zero true o zl zr st1 (fun _ => H) Em). exists 0%nat. reflexivity.
    + assert (Hz : @None bop = None /\ 0 = 0 \/ exists o', @None bop = Some o' /\ rd st x = Some 0) by auto.
      destruct (v_rdonly (st x)) eqn:Ero. { injection Hd as <-. apply HRO; eauto. }
      destruct (sem rd st e) as [[zr st1|st1]|] eqn:Eo; cbn [obind] in Hd; [| |discriminate].
      2:{ injection Hd as <-. apply HBAD; eauto. }
      unfold put_out in Hd. destruct (put_ok st1 x zr) eqn:Ep; [|discriminate]. injection Hd as <-.
      exact (HGOOD 0 zr st1 zr eq_refl Hz eq_refl eq_refl Ep).
  - repeat (apply andb_true_iff in Hwf; destruct Hwf as [Hwf ?]). apply Nat.ltb_lt in H.
    assert (KL : keeps l) by (apply (keeps_sub _ _ HK); cbn; intros G; apply andb_true_iff in G; apply G).
    assert (KR : keeps r) by (apply (keeps_sub _ _ HK); cbn; intros G; apply andb_true_iff in G; apply G).
    rewrite <- app_assoc in Hat. change (bound _ _) with 13%nat in Hr. cbn [app] in Hat. pose proof (lvl_max l) as Hl13.
    destruct (sem rd st l) as [[za st1|st1]|] eqn:Ea; cbn [obind] in Hd; [| |discriminate].
    2:{ injection Hd as <-. apply (IHl Hwf KL 13%nat es st (SOp O_COMMA :: toks r ++ rest) (Bad st1)); auto. rewrite bound_left by lia. cbn. split; [reflexivity|lia]. }
    assert (ML : P st1 /\ runs false 0 13 es st (SOp O_COMMA :: toks r ++ rest) za st1).
    { apply (IHl Hwf KL 13%nat es st _ (Good za st1)); auto. rewrite bound_left by lia. cbn. split; [reflexivity|lia]. }
    destruct ML as [HP1 RL].
    assert (MR : forall es1, at_tok ar (flag 0) (toks r ++ rest) es1 -> e_na es1 = 0%nat -> meets false 0 12 es1 st1 rest oc).
    { intros es1 A1 A2. apply (IHr H0 KR); auto; [lia|]. eapply rest_weaken; [|exact Hr]. apply bound_le. lia. }
    destruct oc as [zb st2|st2].
    + assert (HP2 : P st2).
      { destruct RL as (v & es1 & _ & [_ A2] & A3 & _). destruct (token_flag _ es1 st1 A2) as (es2 & _ & T2 & T3). rewrite A3 in *. exact (proj1 (MR es2 T2 T3)). }
      split; [exact HP2|].
      refine (runs_plain false false 0 O_COMMA 12 es st (toks r) rest za st1 zb st2 zb eq_refl eq_refl Hr HP1 HP2 RL _ eq_refl).
      intros es1 A1 A2. exact (proj2 (MR es1 A1 A2)).
    + refine (fails_plain2 false 0 O_COMMA 12 es st (toks r) rest za st1 st2 eq_refl eq_refl HP1 RL MR).
Qed.

Lemma veval_ok e s st oc : wf e = true -> keeps e -> spelled ar (toks e) s -> P st -> sem rd st e = Some oc ->
  ev (fun n => v_evaluate n ar inev s st) (match oc with Good z st' => Val z st' | Bad st' => Fail st' end).
Proof.
  intros Hwf HK Hs HP Hsem.
  destruct (token_flag (toks e) (ES s T_BAD None 0) st Hs) as (es & T1 & T2 & T3). cbn [e_na flag] in T2, T3.
  rewrite <- (app_nil_r (toks e)) in T2.
  pose proof (sem_ok e Hwf HK 13%nat es st [] oc (lvl_max e) I T2 T3 HP Hsem) as M.
  eapply ev_S; [intros n; cbn [v_evaluate]; rewrite T1; cbn [bnd]; pose proof (at_toks_end _ _ _ _ T2) as He;
    instantiate (1 := fun n => bnd (evalexpr n ar inev MAX_PREC es st) (fun r st => let '(v, es) := r in
      bnd (intvar n ar inev v st) (fun z st => match e_tok es with T_END => Val z st | _ => Fail st end)));
    destruct (e_tok es); try reflexivity; contradiction|].
  destruct oc as [z st'|st']; cbn in M.
  - destruct M as [HP' R]. destruct (runs_val false 0 13 es st [] z st' I HP' R) as (v & es' & E1 & E2 & E3 & _).
    eapply ev_bnd; [exact E1|]. cbv beta iota. eapply ev_bnd; [exact E2|]. cbv beta. rewrite E3. apply ev_const.
  - apply ev_fail. exact M.
Qed.
End Main.

(** * Variables *)
Lemma veval_empty ar inev st : ev (fun n => v_evaluate n ar inev [] st) (Val 0 st).
Proof.
  exists 20%nat. intros n Hn. do 20 (destruct n as [|n]; [lia|]). reflexivity.
Qed.
Lemma sem_pure rd st e oc : pure e = true -> sem rd st e = Some oc -> match oc with Good _ st' | Bad st' => st' = st end.
Proof.
  revert st oc. induction e as [x|s z0|e IH|u e IH|i x|x i|o l IHl r IHr|l IHl r IHr|l IHl r IHr|c IHc a IHa b IHb|x o e IH|l IHl r IHr];
  intros st oc Hp Hs; cbn [pure sem] in *; try discriminate Hp.
  - destruct (rd st x); [|discriminate]. injection Hs as <-. reflexivity.
  - injection Hs as <-. reflexivity.
  - exact (IH _ _ Hp Hs).
  - destruct (sem rd st e) as [[a st1|st1]|] eqn:Ea; cbn [obind] in Hs; [| |discriminate]; specialize (IH _ _ Hp Ea); cbn in IH; subst st1.
    + destruct (umath u a); [|discriminate]. injection Hs as <-. reflexivity.
    + injection Hs as <-. reflexivity.
  - apply andb_true_iff in Hp. destruct Hp as [P1 P2].
    destruct (sem rd st l) as [[a st1|st1]|] eqn:Ea; cbn [obind] in Hs; [| |discriminate]; specialize (IHl _ _ P1 Ea); cbn in IHl; subst st1; [|injection Hs as <-; reflexivity].
    destruct (sem rd st r) as [[b st1|st1]|] eqn:Eb; cbn [obind] in Hs; [| |discriminate]; specialize (IHr _ _ P2 Eb); cbn in IHr; subst st1; [|injection Hs as <-; reflexivity].
    unfold calc_out in Hs. destruct (math o a b); [| |discriminate]; injection Hs as <-; reflexivity.
  - apply andb_true_iff in Hp. destruct Hp as [P1 P2].
    destruct (sem rd st l) as [[a st1|st1]|] eqn:Ea; cbn [obind] in Hs; [| |discriminate]; specialize (IHl _ _ P1 Ea); cbn in IHl; subst st1; [|injection Hs as <-; reflexivity].
    destruct (a =? 0). { destruct (skippable rd st r); [|discriminate]. injection Hs as <-. reflexivity. }
    destruct (sem rd st r) as [[b st1|st1]|] eqn:Eb; cbn [obind] in Hs; [| |discriminate]; specialize (IHr _ _ P2 Eb); cbn in IHr; subst st1; injection Hs as <-; reflexivity.
  - apply andb_true_iff in Hp. destruct Hp as [P1 P2].
    destruct (sem rd st l) as [[a st1|st1]|] eqn:Ea; cbn [obind] in Hs; [| |discriminate]; specialize (IHl _ _ P1 Ea); cbn in IHl; subst st1; [|injection Hs as <-; reflexivity].
    destruct (a =? 0). 2:{ destruct (skippable rd st r); [|discriminate]. injection Hs as <-. reflexivity. }
    destruct (sem rd st r) as [[b st1|st1]|] eqn:Eb; cbn [obind] in Hs; [| |discriminate]; specialize (IHr _ _ P2 Eb); cbn in IHr; subst st1; injection Hs as <-; reflexivity.
  - apply andb_true_iff in Hp. destruct Hp as [P1 P3]. apply andb_true_iff in P1. destruct P1 as [P1 P2].
    destruct (sem rd st c) as [[z st1|st1]|] eqn:Ec; cbn [obind] in Hs; [| |discriminate]; specialize (IHc _ _ P1 Ec); cbn in IHc; subst st1; [|injection Hs as <-; reflexivity].
    destruct (z =? 0).
    + destruct (skippable rd st a); [|discriminate]. exact (IHb _ _ P3 Hs).
    + destruct (sem rd st a) as [[v st1|st1]|] eqn:Ea; cbn [obind] in Hs; [| |discriminate]; specialize (IHa _ _ P2 Ea); cbn in IHa; subst st1; [|injection Hs as <-; reflexivity].
      destruct (skippable rd st b); [|discriminate]. injection Hs as <-. reflexivity.
  - apply andb_true_iff in Hp. destruct Hp as [P1 P2].
    destruct (sem rd st l) as [[a st1|st1]|] eqn:Ea; cbn [obind] in Hs; [| |discriminate]; specialize (IHl _ _ P1 Ea); cbn in IHl; subst st1; [|injection Hs as <-; reflexivity].
    exact (IHr _ _ P2 Hs).
Qed.

(* [sem] only looks at [rd] in the states it passes through *)
Lemma stands_intvar ar inev st x z : stands_for ar inev st x z -> ev (fun n => intvar n ar inev (OVar x) st) (Val z st).
Proof.
  induction 1 as [inev st x z H|inev st x H Hn|inev st x s b z H Hnum Habs Hpre|inev st x s e rd z H Herr Hn Hwf Hsp Hpure _ IH Hsem].
  - apply ev_Sc. intros n. cbn [intvar]. rewrite H. reflexivity.
  - assert (Hm : existsb (str_eqb x) inev = false).
    { destruct (existsb (str_eqb x) inev) eqn:Ee; [|reflexivity]. apply existsb_exists in Ee. destruct Ee as (y & Hy & E). apply str_eqb_true in E. subst y. contradiction. }
    eapply ev_S; [intros n; cbn [intvar]; rewrite H, Hm; reflexivity|]. apply veval_empty.
  - apply ev_Sc. intros n. cbn [intvar]. rewrite H. rewrite (getint_numeral ar (v_zerofil (st x)) s b z Hnum Habs); [reflexivity|].
    intros E. specialize (Hpre E). destruct s as [|c [|d s]]; cbn; auto.
  - assert (Hm : existsb (str_eqb x) inev = false).
    { destruct (existsb (str_eqb x) inev) eqn:Ee; [|reflexivity]. apply existsb_exists in Ee. destruct Ee as (y & Hy & E). apply str_eqb_true in E. subst y. contradiction. }
    eapply ev_S; [intros n; cbn [intvar]; rewrite H, Herr, Hm; reflexivity|].
    refine (veval_ok ar (x :: inev) (fun _ => rd) (fun st' => st' = st) _ e s st (Good z st) Hwf (or_introl Hpure) Hsp eq_refl Hsem).
    intros st' y v -> Hy. exact (IH y v Hy).
Qed.

Definition arith_result (oc : outcome) : out Z := match oc with Good z st' => Val z st' | Bad st' => Fail st' end.
Definition reads (ar : bool) (rd : store -> name -> option Z) : Prop := forall st x z, rd st x = Some z -> stands_for ar [] st x z.
Lemma evaluate_ok ar rd e text st oc : reads ar rd -> wf e = true -> spelled ar (toks e) text -> sem rd st e = Some oc ->
  ev (fun n => evaluate n ar text st) (arith_result oc).
Proof.
  intros Hrd Hwf Hs Hsem.
  refine (veval_ok ar [] rd (fun _ => True) _ e text st oc Hwf (or_intror _) Hs I Hsem); [|auto].
  intros st' x z _ H. apply stands_intvar. auto.
Qed.

Lemma dec_val_horner s : forall acc z, dec_val acc s = Some z -> forallb isdigit s = true /\ horner acc s = z.
Proof.
  induction s as [|c s IH]; intros acc z H; cbn in *.
  - injection H as <-. auto.
  - destruct (isdigit c); [|discriminate]. cbn. auto.
Qed.
Lemma dec_text_ok s z : dec_text s = Some z -> denotes 10 s z /\ 0 <= z <= INT64_MAX /\ match s with c :: _ :: _ => c <> "0"%char | _ => True end /\ forall t, s <> "-"%char :: t.
Proof.
  unfold dec_text. destruct s as [|c r]; [discriminate|]. destruct (ceq c "0" && negb (match r with [] => true | _ => false end)) eqn:E0; [discriminate|].
  destruct (dec_val 0 (c :: r)) as [v|] eqn:Ev; [|discriminate]. destruct (Z.ltb_spec v (2 ^ 63)) as [Hl|Hl]; [|discriminate]. intros E. injection E as <-.
  apply dec_val_horner in Ev. destruct Ev as [D Hh].
  assert (Hden : denotes 10 (c :: r) v) by (apply horner_denotes; split; [discriminate|auto]).
  split; [exact Hden|]. split.
  { split; [exact (Arith_tok.denotes_nonneg 10 _ _ ltac:(lia) Hden)|]. unfold INT64_MAX. change (2 ^ 63) with 9223372036854775808 in Hl. lia. }
  split. { destruct r as [|d r]; [exact I|]. intros ->. discriminate E0. }
  intros t E. injection E as -> _. discriminate D.
Qed.
Lemma plain_reads ar : reads ar plain_rd.
Proof.
  intros st x z. unfold plain_rd. destruct (v_val (st x)) as [[v|s]|] eqn:Ev.
  - intros E. injection E as <-. apply sf_int. exact Ev.
  - destruct s as [|c s]; [discriminate|]. destruct (ceq_spec c "-") as [->|Hc].
    + destruct (dec_text s) as [v|] eqn:Ed; [|discriminate]. intros E. injection E as <-. apply dec_text_ok in Ed. destruct Ed as (D & R & Z0 & M).
      apply (sf_num ar [] st x _ 10 (- v) Ev); [|lia|].
      * apply num_neg; [exact M|]. apply num_dec. exact D.
      * intros _. destruct s; [exact I|]. discriminate.
    + intros Ed. apply dec_text_ok in Ed. destruct Ed as (D & R & Z0 & M).
      apply (sf_num ar [] st x _ 10 z Ev); [apply num_dec; exact D|lia|auto].
  - intros E. injection E as <-. apply sf_unset; auto.
Qed.

(** * C meaning *)
Lemma sem_csem rd st e oc : sem rd st e = Some oc -> csem rd st e = Some oc.
Proof.
  revert st oc. induction e as [x|s z0|e IH|u e IH|i x|x i|o l IHl r IHr|l IHl r IHr|l IHl r IHr|c IHc a IHa b IHb|x o e IH|l IHl r IHr];
  intros st oc H; cbn [sem csem] in *; auto.
  - destruct (sem rd st e) as [q|] eqn:E; [|discriminate]. rewrite (IH _ _ E). exact H.
  - destruct (v_rdonly (st x)); [exact H|]. destruct (rd st x) as [z|]; [|discriminate].
    destruct ((- 2 ^ 31 <=? z) && (z <? 2 ^ 31)) eqn:E32; [|discriminate].
    assert (Ef : fits64 (if i then z + 1 else z - 1) = Some (if i then z + 1 else z - 1)).
    { unfold fits64. replace (_ && _) with true; [reflexivity|].
      apply andb_true_iff in E32. destruct E32 as [E1 E2]. apply Z.leb_le in E1. apply Z.ltb_lt in E2.
      symmetry. apply andb_true_iff. rewrite Z.leb_le, Z.ltb_lt. destruct i; lia. }
    rewrite Ef. exact H.
  - destruct (sem rd st l) as [[a st1|st1]|] eqn:E; [| |discriminate]; rewrite (IHl _ _ E); cbn [obind] in *; [|exact H].
    destruct (sem rd st1 r) as [q|] eqn:E2; [|discriminate]. rewrite (IHr _ _ E2). exact H.
  - destruct (sem rd st l) as [[a st1|st1]|] eqn:E; [| |discriminate]; rewrite (IHl _ _ E); cbn [obind] in *; [|exact H].
    destruct (a =? 0). { destruct (skippable rd st1 r); [exact H|discriminate]. }
    destruct (sem rd st1 r) as [q|] eqn:E2; [|discriminate]. rewrite (IHr _ _ E2). exact H.
  - destruct (sem rd st l) as [[a st1|st1]|] eqn:E; [| |discriminate]; rewrite (IHl _ _ E); cbn [obind] in *; [|exact H].
    destruct (a =? 0). 2:{ destruct (skippable rd st1 r); [exact H|discriminate]. }
    destruct (sem rd st1 r) as [q|] eqn:E2; [|discriminate]. rewrite (IHr _ _ E2). exact H.
  - destruct (sem rd st c) as [[z st1|st1]|] eqn:E; [| |discriminate]; rewrite (IHc _ _ E); cbn [obind] in *; [|exact H].
    destruct (z =? 0). { destruct (skippable rd st1 a); [auto|discriminate]. }
    destruct (sem rd st1 a) as [[v st2|st2]|] eqn:E2; cbn [obind] in H; [| |discriminate].
    + destruct (skippable rd st2 b); [|discriminate]. injection H as <-. auto.
    + injection H as <-. auto.
  - destruct o as [o|].
    + destruct (rd st x); [|discriminate]. destruct (v_rdonly (st x)); [exact H|].
      destruct (sem rd st e) as [q|] eqn:E; [|discriminate]. rewrite (IH _ _ E). exact H.
    + destruct (v_rdonly (st x)); [exact H|]. destruct (sem rd st e) as [q|] eqn:E; [|discriminate]. rewrite (IH _ _ E). exact H.
  - destruct (sem rd st l) as [[a st1|st1]|] eqn:E; [| |discriminate]; rewrite (IHl _ _ E); cbn [obind] in *; [auto|exact H].
Qed.

(** every tree can be written down *)
Definition par (e : expr) : expr := EPar e.
Fixpoint full (e : expr) : expr :=
  match e with
  | EVar _ | ELit _ _ | EPre _ _ | EPost _ _ => e
  | EPar e => EPar (full e)
  | EUn u e => EUn u (par (full e))
  | EBin o l r => EBin o (par (full l)) (par (full r))
  | EAnd l r => EAnd (par (full l)) (par (full r))
  | EOr l r => EOr (par (full l)) (par (full r))
  | ETern c a b => ETern (par (full c)) (par (full a)) (par (full b))
  | EAsn x o e => EAsn x o (par (full e))
  | EComma l r => EComma (par (full l)) (par (full r))
  end.
Lemma full_wf e : ops_ok e = true -> wf (full e) = true.
Proof.
  induction e; cbn [ops_ok asn_ok full wf par lvl] in *; intros H; auto; repeat match goal with H : _ && _ = true |- _ => apply andb_true_iff in H; destruct H end; rewrite ?andb_true_iff;
  repeat split; auto; cbn; try reflexivity.
  destruct o; reflexivity.
Qed.
Lemma csem_full rd e : forall st, csem rd st (full e) = csem rd st e.
Proof.
  assert (OB : forall (m m' : option outcome) f g, m = m' -> (forall z st, f z st = g z st) -> obind m f = obind m' g).
  { intros m m' f g -> H. destruct m' as [[z st|st]|]; cbn; auto. }
  induction e; intros st; cbn [full csem par]; auto.
  - apply OB; auto. intros z st1. destruct (z =? 0); auto.
  - apply OB; auto. intros z st1. destruct (z =? 0); auto.
  - apply OB; auto. intros z st1. destruct (z =? 0); auto.
  - destruct o as [o|].
    + destruct (rd st x); auto. destruct (v_rdonly (st x)); auto.
    + destruct (v_rdonly (st x)); auto.
Qed.
Lemma bare_full e : bare (full e) = bare e.
Proof. induction e; cbn [full bare par]; congruence. Qed.

(** tokens separated by one blank each *)
Definition good_tok (ar : bool) (t : stok) : Prop :=
  match t with SVar x => identifier x = true | SLit s z => literal ar s z | SOp _ => True end.
Fixpoint spaced (ts : list stok) : cstr := match ts with [] => [] | t :: ts => spell t ++ SP :: spaced ts end.
Lemma spelled_spaced ar ts : Forall (good_tok ar) ts -> spelled ar ts (spaced ts).
Proof.
  assert (G : forall ts w, forallb isspace w = true -> Forall (good_tok ar) ts -> spelled ar ts (w ++ spaced ts)).
  { clear ts. induction ts as [|t ts IH]; intros w Hw H.
    - cbn. rewrite app_nil_r. apply sp_end. exact Hw.
    - inversion H as [|? ? H1 H2]; subst. cbn [spaced]. apply sp_cons; [exact Hw| |].
      + change (SP :: spaced ts) with ([SP] ++ spaced ts). apply IH; [reflexivity|exact H2].
      + destruct t as [x|s z|o]; cbn [fits good_tok] in *.
        * split; [exact H1|]. split; [reflexivity|discriminate].
        * split; [exact H1|]. reflexivity.
        * destruct o; vm_compute; reflexivity. }
  intros H. exact (G ts [] eq_refl H).
Qed.
