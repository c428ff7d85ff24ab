(** Common vocabulary: bytes, C strings, byte buffers.

    A C string is the list of its bytes without the terminating NUL.
    Nothing here models a particular function of the code base, except where a
    comment says so. *)
From Coq Require Export String.
From Coq Require Export Ascii List Arith NArith ZArith Lia Bool.
(* [length] is always that of lists *)
Notation length := Datatypes.length.
From Coq Require Export ZifyBool ZifyNat ZifyN.
Export ListNotations.
Local Open Scope list_scope.

Notation char := ascii.
Notation cstr := (list ascii).

(** literal C strings: [L "abc"] *)
Definition L (s : String.string) : cstr := String.list_ascii_of_string s.
Arguments L s%string.

Definition NUL : char := "000"%char.
Definition TAB : char := "009"%char.
Definition NL : char := "010"%char.
Definition SP : char := " "%char.
(** sh.h:36  #define MAGIC (7) *)
Definition MAGIC : char := "007"%char.

Definition code (c : char) : nat := nat_of_ascii c.
Definition ccode (c : char) : Z := Z.of_N (N_of_ascii c).


Definition ceq (a b : char) : bool := Ascii.eqb a b.

Definition is_nul (c : char) : bool := ceq c NUL.
Definition nul_free (s : cstr) : bool := forallb (fun c => negb (is_nul c)) s.

(** ASCII classes of <ctype.h> in the C locale *)
Definition cbetween (lo hi c : char) : bool :=
  ((ccode lo <=? ccode c) && (ccode c <=? ccode hi))%Z.
Definition isdigit (c : char) : bool := cbetween "0" "9" c.
Definition islower (c : char) : bool := cbetween "a" "z" c.
Definition isupper (c : char) : bool := cbetween "A" "Z" c.
Definition isalpha (c : char) : bool := islower c || isupper c.
Definition isalnum (c : char) : bool := isalpha c || isdigit c.
Definition isspace (c : char) : bool :=
  ceq c " " || cbetween "009" "013" c.
Definition toupper (c : char) : char :=
  if islower c then ascii_of_N (N_of_ascii c - 32) else c.
Definition tolower (c : char) : char :=
  if isupper c then ascii_of_N (N_of_ascii c + 32) else c.

Definition str_eqb (a b : cstr) : bool :=
  if list_eq_dec ascii_dec a b then true else false.

Lemma ceq_spec a b : reflect (a = b) (ceq a b).
Proof. apply Ascii.eqb_spec. Qed.

Lemma ceq_true a b : ceq a b = true <-> a = b.
Proof. apply Ascii.eqb_eq. Qed.

Lemma ceq_false a b : ceq a b = false <-> a <> b.
Proof. apply Ascii.eqb_neq. Qed.

Lemma ceq_refl a : ceq a a = true.
Proof. apply Ascii.eqb_refl. Qed.

Lemma str_eqb_true a b : str_eqb a b = true <-> a = b.
Proof. unfold str_eqb; destruct (list_eq_dec ascii_dec a b); split; congruence. Qed.

Lemma str_eqb_refl a : str_eqb a a = true.
Proof. apply str_eqb_true; reflexivity. Qed.

Lemma str_eqb_spec a b : reflect (a = b) (str_eqb a b).
Proof. unfold str_eqb; destruct (list_eq_dec ascii_dec a b); constructor; assumption. Qed.

(** A boolean property of one byte is decided by looking at all 256 bytes. *)
Definition all_chars : list char :=
  map ascii_of_nat (seq 0 256).

Lemma all_chars_complete c : In c all_chars.
Proof.
  unfold all_chars. rewrite in_map_iff. exists (nat_of_ascii c). split.
  - apply ascii_nat_embedding.
  - rewrite in_seq. pose proof (nat_ascii_bounded c). lia.
Qed.

Lemma char_sweep (P : char -> bool) : forallb P all_chars = true -> forall c, P c = true.
Proof. intros H c. rewrite forallb_forall in H. apply H, all_chars_complete. Qed.

Lemma nul_free_app a b : nul_free (a ++ b) = nul_free a && nul_free b.
Proof. apply forallb_app. Qed.

(** strchr(set, c) != NULL for c <> NUL *)
Definition mem (c : char) (set : cstr) : bool := existsb (ceq c) set.

Lemma mem_In c set : mem c set = true <-> In c set.
Proof.
  unfold mem. rewrite existsb_exists. split.
  - intros (x & Hx & He). apply ceq_true in He. subst. assumption.
  - intros H. exists c. split; [assumption|apply ceq_refl].
Qed.

Lemma mem_false c set : mem c set = false <-> ~ In c set.
Proof.
  rewrite <- mem_In. destruct (mem c set); split; intros; congruence.
Qed.
