(** C58: pathname expansion. *)
From Verif Require Import Base Glob_model Glob_spec XString_model Pathglob_model Pathglob_spec Pathglob_proof.
From Coq Require Import Lia.
Local Open Scope nat_scope.

(** A word with patterns is replaced by exactly the paths that match, in ascending order and each once;
    when there are none, by its own text.  For every file system, every number of components, of slashes
    and of files, and every pattern. *)
Theorem c58_pathname_expansion : forall fs p, ok_fs fs -> ok_path p ->
  exists l, glob fs false (enc_path p) = Some l /\
    ((exists s, matches fs p s) -> ascending l /\ forall s, In s l <-> matches fs p s) /\
    (~ (exists s, matches fs p s) -> l = [text_path p]).
Proof. intros fs p FS OP. exact (glob_ok fs false p FS OP). Qed.
Print Assumptions c58_pathname_expansion.
(** With set -o markdirs. *)
Theorem c58_markdirs : forall fs p, ok_fs fs -> ok_path p ->
  exists l, glob fs true (enc_path p) = Some l /\
    ((exists s, marked fs p s) -> ascending l /\ forall s, In s l <-> marked fs p s) /\
    (~ (exists s, marked fs p s) -> l = [text_path p]).
Proof. intros fs p FS OP. exact (glob_ok fs true p FS OP). Qed.
Print Assumptions c58_markdirs.
(** The string in which the paths are built is never written beyond its end: for every word, also
    those with broken patterns, and whatever names the directories list. *)
Theorem c58_safe : forall fs markdirs cp, glob_str fs markdirs cp <> GOob.
Proof.
  intros fs md cp. pose proof (glob_str_ok fs md cp) as G. destruct (pg _ fs [] (Some cp) _); cbn [agrees] in G.
  - destruct G as [x [G _]]. rewrite G. discriminate.
  - rewrite G. discriminate.
Qed.
Print Assumptions c58_safe.

(** * Examples *)
Definition listing (d : cstr) : option (list cstr) :=
  if str_eqb d (L ".") then Some [L "."; L ".."; L "src"; L "b.c"; L ".x.c"; L "old"; L "a.c"]
  else if str_eqb d (L "src/") then Some [L "."; L ".."; L "q.c"; L "main.c"]
  else if str_eqb d (L "old/") then Some [L "."; L ".."; L "main.c"]
  else None.
Definition types (s : cstr) : option ftype :=
  if existsb (str_eqb s) [L "src"; L "src/"; L "old/"] then Some FDir
  else if str_eqb s (L "old") then Some FLink
  else if existsb (str_eqb s) [L "a.c"; L "b.c"; L ".x.c"; L "src/q.c"; L "src/main.c"; L "old/main.c"] then Some FOther
  else None.
Definition ex_fs : fsys := Fs listing types (fun s => if str_eqb s (L "old") then Some FDir else types s).
Example ex_fs_ok : ok_fs ex_fs.
Proof.
  assert (B : forall l, forallb (fun n => negb (empty n) && negb (mem "/" n) && negb (mem NUL n)) l = true -> Forall ok_name l).
  { intros l H. rewrite Forall_forall. rewrite forallb_forall in H. intros n I. specialize (H n I).
    apply andb_prop in H. destruct H as [H H3]. apply andb_prop in H. destruct H as [H1 H2].
    assert (M : forall c, negb (mem c n) = true -> ~ In c n).
    { intros c Hc X. apply negb_true_iff in Hc. unfold mem in Hc. assert (existsb (ceq c) n = true); [|congruence].
      apply existsb_exists. exists c. split; [exact X|]. destruct (ceq_spec c c); congruence. }
    repeat split; [destruct n; [discriminate H1|discriminate]|now apply M|now apply M]. }
  intros d l H. cbn [readdir ex_fs] in H. unfold listing in H.
  destruct (str_eqb d (L ".")); [|destruct (str_eqb d (L "src/")); [|destruct (str_eqb d (L "old/")); [|discriminate H]]];
    injection H as <-; (split; [|apply B; reflexivity]).
  all: repeat (constructor; [cbn; intuition discriminate|]); constructor.
Qed.
(** *.c *)
Definition star_c : pseq := SCons EStar (SCons (ELit false ".") (SCons (ELit false "c") SNil)).
Definition star : pseq := SCons EStar SNil.
Lemma no_slash c : negb (mem "/" (enc_comp c)) = true -> ~ In "/"%char (enc_comp c).
Proof.
  intros H X. apply negb_true_iff in H. unfold mem in H. assert (existsb (ceq "/") (enc_comp c) = true); [|congruence].
  apply existsb_exists. exists "/"%char. split; [exact X|reflexivity].
Qed.
Ltac okp := split; [discriminate|split; [repeat (constructor; [split; [cbn; intuition discriminate|apply no_slash; reflexivity]|]); constructor|
  intros [|? [|? [|? ?]]] ? ? ? E; injection E; intros; subst; cbn in *; congruence]].
Example ex_ok1 : ok_path [(0, CPat star_c)]. Proof. okp. Qed.
Example ex_ok2 : ok_path [(0, CPat star); (1, CText (map (pair false) (L "main.c")))]. Proof. okp. Qed.
Example ex_ok3 : ok_path [(0, CPat star); (0, CText [])]. Proof. okp. Qed.
(** *.c, without the hidden file *)
Example ex_glob1 : glob ex_fs false (enc_path [(0, CPat star_c)]) = Some [L "a.c"; L "b.c"].
Proof. vm_compute. reflexivity. Qed.
(** */main.c; old is a link to a directory *)
Example ex_glob2 : glob ex_fs false (enc_path [(0, CPat star); (0, CText (map (pair false) (L "main.c")))]) = Some [L "old/main.c"; L "src/main.c"].
Proof. vm_compute. reflexivity. Qed.
(** */ *)
Example ex_glob3 : glob ex_fs false (enc_path [(0, CPat star); (0, CText [])]) = Some [L "old/"; L "src/"].
Proof. vm_compute. reflexivity. Qed.
Example ex_glob4 : glob ex_fs true (enc_path [(0, CPat star)]) = Some [L "a.c"; L "b.c"; L "old/"; L "src/"].
Proof. vm_compute. reflexivity. Qed.
(** nothing matches: no*such is the word itself *)
Example ex_glob5 : glob ex_fs false (enc_path [(0, CPat (SCons (ELit false "n") star))]) = Some [L "n*"].
Proof. vm_compute. reflexivity. Qed.

(** * What markdirs costs *)
(** One would expect markdirs only to add slashes.  But in a directory that may be read and not searched
    lstat fails, and with markdirs nothing matches. *)
Definition unsearchable : fsys := Fs (fun d => if str_eqb d (L "d/") then Some [L "f"] else None) (fun _ => None) (fun _ => None).
Definition d_star : path := [(0, CText [(false, "d"%char)]); (0, CPat star)].
Theorem c58_markdirs_refuted : ok_fs unsearchable /\ ok_path d_star /\
  glob unsearchable false (enc_path d_star) = Some [L "d/f"] /\ glob unsearchable true (enc_path d_star) = Some [L "d/*"].
Proof.
  split; [|split; [okp|vm_compute; auto]].
  intros d l H. cbn [readdir unsearchable] in H. destruct (str_eqb d (L "d/")); [|discriminate H]. injection H as <-.
  split; [repeat constructor; intros []|]. constructor; [|constructor]. repeat split; try discriminate; intros [X|[]]; discriminate X.
Qed.
Print Assumptions c58_markdirs_refuted.
