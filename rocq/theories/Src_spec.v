(** What the lexer is to read. *)
From Verif Require Import Base Src_model.

(** The characters a stack of sources stands for, down to the first source that is not an alias
    or text to be re-read. *)
Fixpoint words_text (ws : list cstr) : cstr :=
  match ws with [] => [] | [w] => w ++ [NL] | w :: ws => w ++ SP :: words_text ws end.
Fixpoint text_of (st : list src) : cstr :=
  match st with
  | [] => []
  | Src KEof _ a _ _ :: _ | Src KStr _ a _ _ :: _ => a
  | Src (KLines ls) _ a _ _ :: _ => a ++ line_text (concat ls)
  | Src (KWords ws) _ a _ _ :: _ => a ++ words_text ws
  | Src (KWordSep []) _ a _ _ :: _ => a ++ [NL]
  | Src (KWordSep ws) _ a _ _ :: _ => a ++ SP :: words_text ws
  | Src (KAlias _ _) _ a _ _ :: st | Src KReread _ a _ _ :: st => a ++ text_of st
  end.

(** Texts without null bytes. *)
Definition nuls_out (t : cstr) : Prop := ~ In NUL t.
(** Backslash-newline pairs removed; a backslash takes the next character with it. *)
Fixpoint join (t : cstr) : cstr :=
  match t with
  | [] => []
  | c :: r => if ceq c "\" then
                match r with
                | [] => [c]
                | d :: r => if ceq d NL then join r else c :: d :: join r
                end
              else c :: join r
  end.

(** Reading and putting back, on a text and on the sources: the characters read.  The end of the
    text reads as a null byte. *)
Inductive rop := Read | PutBack.
Fixpoint ideal (ops : list rop) (t : cstr) (last : option char) : cstr :=
  match ops with
  | [] => []
  | Read :: ops => match t with
                   | [] => NUL :: ideal ops [] (Some NUL)
                   | c :: t => c :: ideal ops t (Some c)
                   end
  | PutBack :: ops => match last with
                      | Some c => ideal ops (if is_nul c then t else c :: t) None
                      | None => ideal ops t None
                      end
  end.
(** A character is put back only after being read. *)
Fixpoint proper (ops : list rop) (last : bool) : bool :=
  match ops with
  | [] => true
  | Read :: ops => proper ops true
  | PutBack :: ops => last && proper ops false
  end.
Fixpoint real (ops : list rop) (i : input) (last : option char) : cstr :=
  match ops with
  | [] => []
  | Read :: ops => let '(c, i) := getsc i in c :: real ops i (Some c)
  | PutBack :: ops => match last with
                      | Some c => real ops (ungetsc c i) None
                      | None => real ops i None
                      end
  end.
(** Stacks as the shell starts with: one source at the beginning of its text, and aliases on top. *)
Inductive fresh : list src -> Prop :=
| fresh_str : forall t, nuls_out t -> fresh [Src KStr [] t false false]
| fresh_lines : forall ls, Forall (fun l => l <> []) ls -> fresh [Src (KLines ls) [] [] false false]
| fresh_words : forall ws, Forall nuls_out ws -> fresh [Src (KWords ws) [] [] false false]
| fresh_alias : forall n v fl st, nuls_out v -> fresh st -> fresh (Src (KAlias n v) [] v fl false :: st).
