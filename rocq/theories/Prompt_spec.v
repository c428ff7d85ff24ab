(** What a prompt means. *)
From Verif Require Import Base Prompt_model.

Inductive piece := Ch (c : char) | Bang | Num | Esc (c : char) | Oct (a b c : char) | Date (f : cstr).
Definition octal_digit (c : char) : Prop := In c (L "01234567").
(** The pieces of a prompt; [sh]: as sh reads it. *)
Inductive reads (sh : bool) : list piece -> cstr -> Prop :=
| rd_nil : reads sh [] []
| rd_last : reads sh [] (L "\")
| rd_ch c l s : c <> "\"%char -> c <> "!"%char -> reads sh l s -> reads sh (Ch c :: l) (c :: s)
| rd_bang l s : reads sh l s -> reads sh (Bang :: l) (L "!!" ++ s)
| rd_num l s : (forall r, s <> "!"%char :: r) -> reads sh l s -> reads sh (Num :: l) ("!"%char :: s)
| rd_oct l s a b c : sh = false -> octal_digit a -> octal_digit b -> octal_digit c -> reads sh l s -> reads sh (Oct a b c :: l) (["\"%char; a; b; c] ++ s)
| rd_date l s f : sh = false -> ~ In "}"%char f -> reads sh l s -> reads sh (Date f :: l) (L "\D{" ++ f ++ L "}" ++ s)
| rd_esc l s c :
    (sh = false -> ~ (exists a b r, octal_digit c /\ octal_digit a /\ octal_digit b /\ s = a :: b :: r)) ->
    (sh = false -> c = "D"%char -> s <> [] /\ ~ (exists f r, s = L "{" ++ f ++ L "}" ++ r)) ->
    reads sh l s -> reads sh (Esc c :: l) ("\"%char :: c :: s).

(** The directory with the home directory written as a tilde. *)
Inductive shown_dir (home : cstr) : cstr -> cstr -> Prop :=
| sd_root : shown_dir home (L "/") (L "/")
| sd_home : home <> L "/" -> shown_dir home home (L "~")
| sd_below r : home ++ L "/" ++ r <> L "/" -> shown_dir home (home ++ L "/" ++ r) (L "~/" ++ r)
| sd_other d : d <> home -> (forall r, d <> home ++ L "/" ++ r) -> shown_dir home d d.

(** What is printed for each. *)
Definition letters : cstr := L "adDehHjlnprstT@AuvVwW!#\[]".
Inductive means (e : penv) : piece -> cstr -> Prop :=
| m_ch c : means e (Ch c) [c]
| m_bang : means e Bang (L "!")
| m_num : means e Num (hist_no e)
| m_oct a b c n : (n = ((N_of_ascii a - 48) * 64 + (N_of_ascii b - 48) * 8 + (N_of_ascii c - 48)) mod 256)%N -> n <> 0%N -> means e (Oct a b c) [ascii_of_N n]
| m_nul a b c : (((N_of_ascii a - 48) * 64 + (N_of_ascii b - 48) * 8 + (N_of_ascii c - 48)) mod 256 = 0)%N -> means e (Oct a b c) []
| m_date f : means e (Date f) (date e f)
| m_sh c : psh e = true -> c <> "h"%char -> c <> "p"%char -> means e (Esc c) ["\"%char; c]
| m_host h r : host e = h ++ r -> ~ In "."%char h -> (r = [] \/ exists r', r = "."%char :: r') -> means e (Esc "h") h
| m_root : root e = true -> means e (Esc "p") (L "#")
| m_user : root e = false -> means e (Esc "p") (L "$")
| m_esc c t : psh e = false -> escape e c t -> means e (Esc c) t
with escape (e : penv) : char -> cstr -> Prop :=
| e_bell : escape e "a" ["007"%char]
| e_esc : escape e "e" ["027"%char]
| e_nl : escape e "n" ["010"%char]
| e_cr : escape e "r" ["013"%char]
| e_day : escape e "d" (date e (L "%a %b %d"))
| e_full : escape e "H" (host e)
| e_jobs : escape e "j" (njobs e)
| e_tty t : tty e = Some t -> escape e "l" (base e t)
| e_name : escape e "s" (kname e)
| e_time : escape e "t" (date e (L "%T"))
| e_time12 : escape e "T" (date e (L "%l:%M:%S"))
| e_ampm : escape e "@" (date e (L "%r"))
| e_hm : escape e "A" (date e (L "%R"))
| e_user : escape e "u" (user e)
| e_version a b c r : version e = a ++ L " " ++ b ++ L " " ++ c ++ r -> ~ In SP a -> ~ In SP b -> ~ In SP c -> (r = [] \/ exists r', r = SP :: r') -> escape e "v" c
| e_long : escape e "V" (version e)
| e_cwd d : shown_dir (home e) (pwd e) d -> escape e "w" d
| e_athome : pwd e = home e -> escape e "W" (L "~")
| e_dir : pwd e <> home e -> escape e "W" (base e (pwd e))
| e_hist : escape e "!" (hist_no e)
| e_cmd : escape e "#" (cmd_no e)
| e_back : escape e "\" (L "\")
| e_off : escape e "[" []
| e_on : escape e "]" []
| e_date : escape e "D" (L "\D")
| e_other c : ~ In c letters -> escape e c ["\"%char; c].

(** The pieces that start a new line (or the line anew) on the screen. *)
Definition new_line (sh : bool) (p : piece) : Prop := p = Ch NL \/ p = Ch "013"%char \/ sh = false /\ (p = Esc "n" \/ p = Esc "r").
(** The bytes that take place on the screen: not those between \[ and \], nor between delimiters and these themselves. *)
Fixpoint visible (sh : bool) (delim : option char) (counting inside : bool) (l : list (piece * cstr)) : nat :=
  match l with
  | [] => 0
  | (p, t) :: l =>
      match p with
      | Esc c => if negb sh && ceq c "[" then visible sh delim false inside l
                 else if negb sh && ceq c "]" then visible sh delim true inside l
                 else (if counting && negb inside then length t else 0) + visible sh delim counting inside l
      | Ch c => if match delim with Some d => ceq c d | None => false end then visible sh delim counting (negb inside) l
                else (if counting && negb inside then length t else 0) + visible sh delim counting inside l
      | _ => (if counting && negb inside then length t else 0) + visible sh delim counting inside l
      end
  end.
(** Whether bytes are counted after these pieces. *)
Fixpoint counted (sh : bool) (b : bool) (l : list piece) : bool :=
  match l with
  | [] => b
  | Esc c :: l => counted sh (if negb sh && ceq c "[" then false else if negb sh && ceq c "]" then true else b) l
  | _ :: l => counted sh b l
  end.
