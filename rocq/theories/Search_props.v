(** C04: candidate directories of cd.  C05: searching PATH. *)
From Verif Require Import Base Search_model Search_spec Search_proof.

(** C04.  For a target that is neither absolute nor explicitly relative, the
    calls of make_path go through the elements of CDPATH in order and stop;
    the i-th candidate is the target in the directory the i-th element stands
    for, joined with exactly one slash. *)
Theorem c04_cdpath_candidates (cwd : option cstr) (file cdpath : cstr) :
  is_abs file = false -> ~ explicit_relative file ->
  exists l, make_paths (S (length cdpath)) cwd file (Some cdpath) = Some l /\
    map (fun x => fst (fst x)) l =
      map (fun e => one_slash (element_dir (match cwd with Some d => d | None => [] end) e) file) (colon_list cdpath) /\
    map (fun x => snd (fst x)) l = map (fun e => negb (str_eqb e [])) (colon_list cdpath).
Proof.
  intros Ha Hd. apply make_paths_elts; auto.
  destruct (dot_file file) eqn:E; [|reflexivity]. apply dot_file_spec in E. contradiction.
Qed.
Print Assumptions c04_cdpath_candidates.

Example c04_cdpath_example :
  make_paths 20 (Some (L "/home/u")) (L "src") (Some (L "/usr/:lib::x")) =
  Some [(L "/usr/src", true, 0); (L "/home/u/lib/src", true, 8); (L "/home/u/src", false, 8); (L "/home/u/x/src", true, 8)].
Proof. vm_compute. reflexivity. Qed.

(** C04.  The physical part of a candidate (what follows *phys_pathp) is the
    whole for an absolute element, and what follows the current directory
    otherwise. *)
Theorem c04_phys_part (cwd : option cstr) (file cdpath : cstr) :
  is_abs file = false -> ~ explicit_relative file ->
  let '(e, r) := to_colon cdpath in
  let '(s, used, ph, next) := make_path cwd file (Some cdpath) in
  (is_abs e = true -> ph = 0) /\
  (is_abs e = false ->
     firstn ph s = one_slash (match cwd with Some d => d | None => [] end) [] /\
     s = firstn ph s ++ match e with [] => file | _ => one_slash e file end).
Proof.
  intros Ha Hd. assert (E : dot_file file = false).
  { destruct (dot_file file) eqn:E; [|reflexivity]. apply dot_file_spec in E. contradiction. }
  pose proof (make_path_elt cwd file cdpath Ha E) as H. destruct (to_colon cdpath) as [e r].
  destruct (make_path cwd file (Some cdpath)) as [[[s used] ph] next].
  destruct H as (_ & _ & _ & H1 & H2). split; [exact H1|]. intros H. destruct (H2 H) as [H3 H4]. split; [exact H4|].
  symmetry. exact H3.
Qed.
Print Assumptions c04_phys_part.

(** C04.  Absolute targets stand for themselves, whatever CDPATH is. *)
Theorem c04_absolute_target (cwd : option cstr) (file : cstr) (cdpath : option cstr) :
  is_abs file = true -> make_path cwd file cdpath = (file, false, 0, None).
Proof. exact (make_path_abs cwd file cdpath). Qed.
Print Assumptions c04_absolute_target.

(** C04.  ".", "..", "./x", "../x" ignore CDPATH, and so does any target when
    CDPATH is unset: one candidate, in the current directory. *)
Theorem c04_relative_target (cwd : option cstr) (file : cstr) (cdpath : option cstr) :
  is_abs file = false -> explicit_relative file \/ cdpath = None ->
  exists ph, make_path cwd file cdpath =
    (one_slash (match cwd with Some d => d | None => [] end) file, false, ph, None).
Proof.
  intros Ha Hd. apply make_path_direct; [exact Ha|].
  destruct Hd as [Hd|Hd]; [left; apply dot_file_spec; exact Hd|right; exact Hd].
Qed.
Print Assumptions c04_relative_target.

Example c04_relative_example : explicit_relative (L "../x") /\
  make_path (Some (L "/a/")) (L "../x") (Some (L "/usr")) = (L "/a/../x", false, 3, None).
Proof. split; [right; right; right; exists (L "x"); reflexivity|vm_compute; reflexivity]. Qed.

(** C05.  A name without a slash: the result is the candidate of the first PATH
    element that qualifies, and None only if none does. *)
Theorem c05_search_first_match stat access (name path : cstr) (x : bool) :
  ~ In "/"%char name ->
  exists r e, search stat access name path x = Some (r, e) /\
    (r = None /\ (forall d, In d (colon_list path) -> ~ qualifies stat access x (candidate name d)) \/
     exists before d later, colon_list path = before ++ d :: later /\ r = Some (candidate name d) /\
       qualifies stat access x (candidate name d) /\
       forall d', In d' before -> ~ qualifies stat access x (candidate name d')).
Proof.
  intros Hn. unfold search. rewrite (proj2 (mem_false "/"%char name) Hn).
  exact (search_loop_spec stat access (S (length path)) name path x 0 (Nat.lt_succ_diag_r _)).
Qed.
Print Assumptions c05_search_first_match.

(** C05.  A name with a slash is looked at as it is, never in PATH. *)
Theorem c05_slash_not_searched stat access (name path : cstr) (x : bool) :
  In "/"%char name ->
  exists e, (qualifies stat access x name /\ search stat access name path x = Some (Some name, e)) \/
            (~ qualifies stat access x name /\ search stat access name path x = Some (None, e)).
Proof.
  intros Hn. unfold search. rewrite (proj2 (mem_In "/"%char name) Hn).
  pose proof (search_access_ok stat access name x 0) as H.
  destruct (search_access stat access name x 0) as [ok e]. cbn [fst] in H. exists e.
  destruct ok; [left; split; [apply H; reflexivity|reflexivity]|right].
  split; [|reflexivity]. intros Hq. apply H in Hq. discriminate.
Qed.
Print Assumptions c05_slash_not_searched.

Example c05_example :
  let stat := fun p => if str_eqb p (L "/bin/ls") || str_eqb p (L "ls") then Some {| is_reg := true; is_dir := false; any_x := true |}
                       else if str_eqb p (L "/lib/ls") then Some {| is_reg := false; is_dir := true; any_x := true |} else None in
  search stat (fun _ _ => None) (L "ls") (L "/lib:/bin::/x") true = Some (Some (L "/bin/ls"), 21) /\
  search stat (fun _ _ => None) (L "ls") (L "/lib::/bin") true = Some (Some (L "ls"), 21).
Proof. split; vm_compute; reflexivity. Qed.
