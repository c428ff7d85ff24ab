(** What a command name stands for. *)
From Verif Require Import Base Search_model Search_spec Findcom_model.
Local Open Scope nat_scope.

Section Files.
Context {D : Type} (stat : D -> cstr -> option fileinfo) (access : D -> cstr -> bool -> option nat) (def_path : cstr).

(** the file that a name stands for in a list of directories; [x]: an executable *)
Definition first_in (d : D) (path name : cstr) (x : bool) (p : cstr) : Prop :=
  In "/"%char name /\ p = name /\ qualifies (stat d) (access d) x name \/
  ~ In "/"%char name /\ exists before dir later, colon_list path = before ++ dir :: later /\ p = candidate name dir /\
    qualifies (stat d) (access d) x p /\ forall dir', In dir' before -> ~ qualifies (stat d) (access d) x (candidate name dir').

Section Name.
Context (d : D) (path : cstr) (de : defs) (name : cstr) (fl : fcflags).
Definition plain : Prop := ~ In "/"%char name.
(** the kinds of commands, in the order in which they are tried *)
Definition special (b : bi) : Prop := plain /\ fc_spec fl = true /\ d_bi de name = Some b /\ bi_spec b = true.
Definition function (defined : bool) : Prop := plain /\ fc_func fl = true /\
  exists inner f outer, d_funs de = inner ++ f :: outer /\ f name = Some defined /\ forall g, In g inner -> g name = None.
Definition regular (b : bi) : Prop := plain /\ fc_reg fl = true /\ d_bi de name = Some b /\ bi_reg b = true.
Definition other (b : bi) : Prop := plain /\ fc_unreg fl = true /\ d_bi de name = Some b.
Definition file (p : cstr) : Prop := fc_path fl = true /\ first_in d (if fc_def fl then def_path else path) name true p.
(** the file a function is loaded from *)
Definition loaded (p : cstr) : Prop := exists f, d_fpath de = Some f /\ first_in d f name false p.
Definition autoload (p : cstr) : Prop := plain /\ fc_path fl = true /\ fc_func fl = true /\ loaded p.
Definition none {A} (P : A -> Prop) : Prop := forall x, ~ P x.

(** the result of the lookup is right *)
Definition right_entry (e : option entry) : Prop :=
  match e with
  | Some (EBi b) => special b \/ none special /\ none function /\ (regular b \/ none regular /\ other b)
  | Some (EFunc None) => none special /\ function true
  | Some (EFunc (Some load)) =>
      none special /\ function false /\ (forall p, load = Some p <-> loaded p) \/
      none special /\ none function /\ none regular /\ none other /\ none file /\ exists p, load = Some p /\ autoload p
  | Some (ETalias (Some p)) | Some (EExec (Some p)) => none special /\ none function /\ none regular /\ none other /\ file p
  | Some (ETalias None) | Some (EExec None) => none special /\ none function /\ none regular /\ none other /\ none file /\ none autoload /\ fc_path fl = true
  | None => none special /\ none function /\ none regular /\ none other /\ fc_path fl = false
  end.
End Name.

(** the tracked aliases stand for what PATH gives *)
Definition coherent (s : shell) : Prop := forall name p, tfind (sh_tal s) name = Some (Some p) -> first_in (sh_cwd s) (sh_path s) name true p.
(** the tracked aliases can be executed *)
Definition usable (s : shell) : Prop := forall name p, tfind (sh_tal s) name = Some (Some p) -> qualifies (stat (sh_cwd s)) (access (sh_cwd s)) true p.
(** an absolute name means the same file everywhere *)
Definition absolute_names : Prop := forall d d' p, is_abs p = true -> stat d p = stat d' p /\ forall x, access d p x = access d' p x.

(** Histories: any commands; [strict]: cd only while all directories of PATH are absolute *)
Inductive reach (strict : bool) (s0 : shell) : shell -> Prop :=
| Reach_start : reach strict s0 s0
| Reach_step s o : reach strict s0 s -> (strict = true -> forall d, o = OCd d -> Forall (fun e => is_abs e = true) (colon_list (sh_path s))) ->
    reach strict s0 (step stat access def_path s o).
End Files.
