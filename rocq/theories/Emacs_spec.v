(** What is claimed of the emacs line editor (C63-C65). *)
From Verif Require Import Base Num_model Emacs_model.
From Coq Require Import ZArith.

(** ** The bounds (C63) *)
Definition no_nul (t : cstr) : Prop := Forall (fun c => c <> NUL) t.
(** The line and the cursor are in the buffer: there is room for the NUL at the end. *)
Definition within (e : env) (s : ed) : Prop := cur s <= length (txt s) /\ length (txt s) < cap e /\ no_nul (txt s).
(** The kills that earlier lines left *)
Definition ring_ok (l : list (option cstr)) (sp tp : nat) : Prop :=
  length l = 20 /\ sp < 20 /\ tp < 20 /\ forall t, In (Some t) l -> no_nul t.
Definition inv (e : env) (s : ed) : Prop :=
  within e s /\ ring_ok (kills s) (ksp s) (ktp s) /\ (histp s <= histptr e + 1)%Z.
(** What is yet to be read *)
Definition pending (s : ed) : list Z :=
  match unget s with Some c => [c] | None => [] end ++ match macro s with Some m => map schar m | None => [] end ++ map uchar (input s).
Definition number (l : list Z) : Z := fold_left (fun n c => n * 10 + (c - 48))%Z l 0%Z.
Definition digits (l : list Z) : Prop := forall c, In c l -> (48 <= c <= 57)%Z.
(** The environment: there is room for every history line, no history line is empty, x_cf_glob tells a part of the line and words that
    are not empty, the keys of a binding fit into line[] of x_emacs, and the last word of the history is asked for only if there is one. *)
Record sane (e : env) : Prop := {
  sn_hist : forall t, In t (hist e) -> no_nul t /\ t <> [] /\ length t < cap e;
  sn_glob : forall f t c a b l, glob e f t c = Some (a, b, l) -> c <= length t ->
              a <= b <= length t /\ l <> [] /\ forall w, In w l -> no_nul w /\ w <> [];
  sn_keys : forall k, In k (keys e) -> length (seq_of k) + 4 <= line_max e;
  sn_four : 4 <= line_max e;
  sn_cap : 0 < cap e;
  sn_word : hist e = [] -> forall k, In k (keys e) -> fn k <> F_prev_histword
}.
(** The states from which a key can leave the buffer: the mark is beyond the line; the last command was a yank for which there was no
    room; the digits that come, after another digit, make a number above INT_MAX. *)
Definition stale_mark (s : ed) : Prop := exists m, mark s = Some m /\ length (txt s) < m.
Definition lost_yank (s : ed) : Prop :=
  (last_cmd s = Some F_yank \/ last_cmd s = Some F_meta_yank) /\ exists t, nth (ktp s) (kills s) None = Some t /\ cur s < length t.
Definition long_number (s : ed) : Prop :=
  exists c a d z, pending s = a ++ d ++ z /\ digits (c :: d) /\ (INT_MAX < number (c :: d))%Z.
Definition trap (s : ed) : Prop := stale_mark s \/ lost_yank s \/ long_number s.

(** ** Killing and yanking (C64) *)
Definition kill_cmd (g : func) : Prop := In g [F_del_bword; F_del_fword; F_kill; F_kill_region; F_del_line].
(** The kills, the latest first: from the one before killsp backwards, around *)
Definition ring (s : ed) : list cstr :=
  flat_map (fun o => match o with Some t => [t] | None => [] end) (rev (firstn (ksp s) (kills s)) ++ rev (skipn (ksp s) (kills s))).
(** The ring is filled from 0 on; when it is full the oldest kill goes. *)
Definition ring_wf (l : list (option cstr)) (sp : nat) : Prop :=
  length l = 20 /\ sp < 20 /\ ((forall i, i < 20 -> nth i l None <> None) \/ (forall i, i < 20 -> (nth i l None <> None <-> i < sp))).
(** [k], between [l] and [r], is killed: it is in the place that killsp named. *)
Definition killed (s s1 : ed) (l k r : cstr) : Prop :=
  txt s = l ++ k ++ r /\ txt s1 = l ++ r /\ cur s1 = length l /\ ksp s1 = (ksp s + 1) mod 20 /\ kills s1 = set_nth (kills s) (ksp s) (Some k).
(** A command is done: x_last_command is it. *)
Definition cmd (e : env) (g : func) (s s' : ed) : Prop :=
  exists f c s1, run e f g c None s = Ok (KSTD, s1) /\ s' = with_last (Some g) (with_arg None s1).
(** A yank and [j] times the yank of an older kill in its place *)
Inductive yanks (e : env) (s : ed) : nat -> ed -> Prop :=
| ys_yank s1 : cmd e F_yank s s1 -> yanks e s 0 s1
| ys_pop j s1 s2 : yanks e s j s1 -> cmd e F_meta_yank s1 s2 -> yanks e s (S j) s2.
(** One word to the right: blanks, and what is no blank, as far as it goes.  A byte of a word: a letter, a digit, _, $, or not ASCII *)
Definition word_byte (c : char) : Prop :=
  let n := nat_of_ascii c in 48 <= n <= 57 \/ 65 <= n <= 90 \/ 97 <= n <= 122 \/ c = "_"%char \/ c = "$"%char \/ 128 <= n.
Definition word_right (w r : cstr) : Prop :=
  exists a b, w = a ++ b /\ Forall (fun c => ~ word_byte c) a /\ Forall word_byte b /\ (b = [] -> r = []) /\
    match r with c :: _ => ~ word_byte c | [] => True end.
Definition word_left (l w : cstr) : Prop := word_right (rev w) (rev l).
(** What each command kills *)
Definition kills_what (a : option nat) (g : func) (s : ed) (l k r : cstr) : Prop :=
  match g with
  | F_kill => a = None -> l = firstn (cur s) (txt s) /\ r = []
  | F_del_line => l = [] /\ r = []
  | F_kill_region => exists m, mark s = Some m /\ (m = length l /\ cur s = length (l ++ k) \/ cur s = length l /\ m = length (l ++ k))
  | F_del_bword => cur s = length (l ++ k) /\ (a = None -> word_left l k)
  | F_del_fword => cur s = length l /\ (a = None -> word_right k r)
  | _ => False
  end.
(** Moving does not change the line. *)
Definition motion (g : func) : Prop :=
  In g [F_mv_back; F_mv_begin; F_mv_bword; F_mv_end; F_mv_forw; F_mv_fword; F_search_char_forw; F_search_char_back; F_set_mark;
        F_xchg_point_mark; F_clear_screen; F_draw_line; F_noop; F_error; F_literal; F_set_arg; F_list_comm; F_list_file; F_enumerate].
(** Characters as utf8(7) has them, the editor's view: a byte that is no continuation, and continuations *)
Definition starts (c : char) : Prop := nat_of_ascii c < 128 \/ 192 <= nat_of_ascii c.
Definition goes_on (c : char) : Prop := 128 <= nat_of_ascii c < 192.
Definition is_char (t : cstr) : Prop := exists c r, t = c :: r /\ starts c /\ Forall goes_on r.

(** What will be read when no macro is; what was put back is a byte. *)
Definition byte_ok (s : ed) : Prop := macro s = None /\ match unget s with Some z => (0 <= z < 256)%Z | None => True end.
Definition view (s : ed) : list char := match unget s with Some z => [to_char z] | None => [] end ++ input s.
Definition unbound (e : env) (c : char) : Prop := forall k, In k (keys e) -> forall z, seq_of k <> c :: z.
(** ** Bindings (C65) *)
Definition is_prefix (a b : cstr) : Prop := exists c, b = a ++ c.
Definition prefix_free (ks : list binding) : Prop :=
  (forall k, In k ks -> seq_of k <> []) /\
  forall l1 k l2 k', ks = l1 ++ k :: l2 -> In k' (l1 ++ l2) -> ~ is_prefix (seq_of k) (seq_of k').
Definition ascii_seq (t : cstr) : Prop := forall c, In c t -> nat_of_ascii c < 128.
