(** Expanding a word: eval.c:156-731 expand, 736-879 varsub, 1176-1204 maybe_expand_tilde;
    misc.c:31-43 setctypes (IFS), var.c:986-988, 1109-1110 (ifs0).

    The word is the memory at [sp] (tree.h's encoding, see Word_model).  Each run of the loop
    of expand() is one [step].  What the rest of the shell does (the values of variables,
    running commands, arithmetic, home directories) is given by a record of functions on an
    environment.  trimsub and debunk are Trim_model and Glob_model.

    Simplifications: the subscript of an array in ${a[i]} is evaluated as part of [value],
    without side effects, and x.var is represented by its name (it is looked up again where
    the code uses st->var; varcpy's copies of readonly variables do not change meanwhile);
    a temporary quote (bit 2 of quote) lives only for the character after it;
    the room in [ds] is not modelled (XString_model). *)
From Verif Require Import Base Num_model SimplifyPath_model Glob_model Trim_model Word_model.
Local Open Scope Z_scope.

Record sys (E : Type) := Sys {
  params : E -> list cstr;                           (* genv->loc->argv + 1 *)
  value : E -> cstr -> option cstr;                  (* str_val(global(name)); None: null *)
  elems : E -> cstr -> list cstr;                    (* the set elements of name[*] *)
  array_set : E -> cstr -> bool;                     (* flag & (ISSET|ARRAY) *)
  is_int : E -> cstr -> bool;                        (* flag & INTEGER *)
  assign : E -> cstr -> cstr -> option (E * cstr);   (* setstr; str_val afterwards *)
  arith : E -> cstr -> option (E * cstr);            (* v_evaluate(substitute(s)), str_val *)
  command : E -> cstr -> option (E * option cstr);   (* comsub: None: no command; the output *)
  tilde : E -> cstr -> option cstr;                  (* 1212-1232 *)
  ifs : E -> cstr;                                   (* the value of IFS *)
  nounset : E -> bool }.
Arguments params {E}. Arguments value {E}. Arguments elems {E}. Arguments array_set {E}. Arguments is_int {E}. Arguments assign {E}.
Arguments arith {E}. Arguments command {E}. Arguments tilde {E}. Arguments ifs {E}. Arguments nounset {E}.

(** ctype(c, C_IFS): NUL too; C_IFSWS does not depend on IFS *)
Definition c_ifs (w : cstr) (c : char) : bool := is_nul c || mem c w.
Definition c_ifsws (c : char) : bool := mem c [SP; TAB; NL].
Definition ifs0 (w : cstr) : char := match w with [] => NUL | c :: _ => c end.

(** the DO* flags (tree.h:114-124); DOVACHECK is dealt with before *)
Record flags := F { blank : bool; glob : bool; pat : bool; dotilde : bool; asn : bool; dont : bool; brace : bool; temp : bool; markd : bool }.
Inductive wstate := WORD | WS | NWS | IWS | QUOTE.   (* IFS_* *)
(** [type], with what it needs of x *)
Inductive source :=
| XBASE
| XSUB (mid : bool) (s : cstr)                        (* XSUB, XSUBMID *)
| XARG (sep : bool) (s : cstr) (rest : list cstr) (split : bool)  (* XARGSEP: sep *)
| XCOM (nl : nat) (out : cstr)
| XNULLSUB.
(** a word as it is given to the second pass (599-610): fdo, f & DOPAT, f & DOMARKDIRS and the bytes
    (the empty word of 625-630 goes to the list directly, as this one would) *)
Record raw := Raw { r_brace : bool; r_glob : bool; r_magic : bool; r_pat : bool; r_mark : bool; r_text : cstr }.
(** stype: the operator and the bit 0x80 *)
Definition styp := option (bool * char).
Record sub := Sub { s_type : styp; s_base : Z; s_f : flags; s_var : option cstr; s_quote : bool }.

Section Machine.
Variable E : Type.
Variable y : sys E.

Record st := St {
  env : E; sp : cstr; ty : source; quote : bool; dp : cstr;
  fbrace : bool; fglob : bool; fmagic : bool;          (* fdo *)
  word : wstate; doblank : Z; stk : list sub; saw_eq : bool;
  tok1 : bool; tok2 : bool;                            (* bits 1 and 2 of tilde_ok *)
  f : flags; outs : list raw }.
Definition set_env m v := St v (sp m) (ty m) (quote m) (dp m) (fbrace m) (fglob m) (fmagic m) (word m) (doblank m) (stk m) (saw_eq m) (tok1 m) (tok2 m) (f m) (outs m).
Definition set_sp m v := St (env m) v (ty m) (quote m) (dp m) (fbrace m) (fglob m) (fmagic m) (word m) (doblank m) (stk m) (saw_eq m) (tok1 m) (tok2 m) (f m) (outs m).
Definition set_ty m v := St (env m) (sp m) v (quote m) (dp m) (fbrace m) (fglob m) (fmagic m) (word m) (doblank m) (stk m) (saw_eq m) (tok1 m) (tok2 m) (f m) (outs m).
Definition set_quote m v := St (env m) (sp m) (ty m) v (dp m) (fbrace m) (fglob m) (fmagic m) (word m) (doblank m) (stk m) (saw_eq m) (tok1 m) (tok2 m) (f m) (outs m).
Definition set_dp m v := St (env m) (sp m) (ty m) (quote m) v (fbrace m) (fglob m) (fmagic m) (word m) (doblank m) (stk m) (saw_eq m) (tok1 m) (tok2 m) (f m) (outs m).
Definition set_fdo m a b c := St (env m) (sp m) (ty m) (quote m) (dp m) a b c (word m) (doblank m) (stk m) (saw_eq m) (tok1 m) (tok2 m) (f m) (outs m).
Definition set_word m v := St (env m) (sp m) (ty m) (quote m) (dp m) (fbrace m) (fglob m) (fmagic m) v (doblank m) (stk m) (saw_eq m) (tok1 m) (tok2 m) (f m) (outs m).
Definition set_doblank m v := St (env m) (sp m) (ty m) (quote m) (dp m) (fbrace m) (fglob m) (fmagic m) (word m) v (stk m) (saw_eq m) (tok1 m) (tok2 m) (f m) (outs m).
Definition set_stk m v := St (env m) (sp m) (ty m) (quote m) (dp m) (fbrace m) (fglob m) (fmagic m) (word m) (doblank m) v (saw_eq m) (tok1 m) (tok2 m) (f m) (outs m).
Definition set_til m e a b := St (env m) (sp m) (ty m) (quote m) (dp m) (fbrace m) (fglob m) (fmagic m) (word m) (doblank m) (stk m) e a b (f m) (outs m).
Definition set_f m v := St (env m) (sp m) (ty m) (quote m) (dp m) (fbrace m) (fglob m) (fmagic m) (word m) (doblank m) (stk m) (saw_eq m) (tok1 m) (tok2 m) v (outs m).
Definition set_outs m v := St (env m) (sp m) (ty m) (quote m) (dp m) (fbrace m) (fglob m) (fmagic m) (word m) (doblank m) (stk m) (saw_eq m) (tok1 m) (tok2 m) (f m) v.
Definition no_tilde m := set_til m (saw_eq m) false false.       (* tilde_ok = 0 *)
Definition up m := if blank (f m) then set_doblank m (doblank m + 1) else m.
Definition down m := if blank (f m) then set_doblank m (doblank m - 1) else m.

Inductive out := Next (m : st) | Done (m : st) | Err (e : E) | Bad.

(** eval.c:597-615: emit_word; [c]: c != 0 *)
Definition emit_word (m : st) : st :=
  let m := set_outs m (outs m ++ [Raw (fbrace m) (fglob m) (fmagic m) (pat (f m)) (markd (f m)) (dp m)]) in
  let m := set_til (set_fdo m false false false) false (dotilde (f m) || asn (f m)) false in
  set_dp m [].
(** eval.c:619-620 *)
Definition after_split (m : st) (c : char) : st :=
  match word m with NWS => m | _ => set_word m (if c_ifsws c then WS else NWS) end.
(** eval.c:593-620 *)
Definition split_at (m : st) (c : char) : out :=
  let emits := match word m with
               | WORD | QUOTE => true
               | IWS | NWS => negb (is_nul c) && negb (c_ifsws c)
               | WS => false end in
  let m := if emits then emit_word m else m in
  if is_nul c then Done m else Next (after_split m c).

(** eval.c:1181-1195 maybe_expand_tilde: the name and what follows it *)
Fixpoint tilde_name (p : cstr) (isassign : bool) : cstr * cstr :=
  match p with
  | k :: c :: r => if ceq k CHAR && negb (ceq c "/") && (negb isassign || negb (ceq c ":")) then let '(n, rest) := tilde_name r isassign in (c :: n, rest) else ([], p)
  | _ => ([], p)
  end.
Definition quote_magic (s : cstr) : cstr := flat_map (fun c => if ismagic c then [MAGIC; c] else [c]) s.
Definition maybe_tilde (m : st) : option st :=
  let '(n, rest) := tilde_name (sp m) (asn (f m)) in
  match rest with
  | k :: _ => if ceq k EOS || ceq k CHAR || ceq k CSUBST then
                match tilde y (env m) n with
                | Some r => let m := match r with [] => m | _ => set_word m WORD end in Some (set_sp (set_dp m (dp m ++ quote_magic r)) rest)
                | None => None
                end
              else None
  | [] => None
  end.

(** eval.c:622-720: [q]: quote; [magic]: make_magic *)
Definition put (m : st) (c : char) (q magic : bool) : out :=
  let m := match ty m with
           | XSUB false s =>
             let m := match word m, dp m with NWS, [] => set_outs m (outs m ++ [Raw false false false (pat (f m)) (markd (f m)) []]) | _, _ => m end in
             set_ty m (XSUB true s)
           | _ => m end in
  let m := set_til m (saw_eq m) false (tok1 m) in
  let finish m :=
    let m := if magic then set_dp (set_fdo m (fbrace m) (fglob m || glob (f m)) true) (dp m ++ [MAGIC; c])
             else if ismagic c then set_dp (set_fdo m (fbrace m) (fglob m) true) (dp m ++ [MAGIC; c])
             else set_dp m (dp m ++ [c]) in
    Next (set_word m WORD) in
  if q then finish m
  else if mem c (L "[!-]") then
    finish (if pat (f m) || glob (f m) then
              set_dp (set_fdo m (fbrace m) (fglob m || (ceq c "[" && glob (f m))) true) (dp m ++ [MAGIC])
            else m)
  else if mem c (L "*?") then
    finish (if pat (f m) || glob (f m) then set_dp (set_fdo m (fbrace m) (fglob m || glob (f m)) true) (dp m ++ [MAGIC]) else m)
  else if mem c (L "{,}") then
    finish (if brace (f m) && (ceq c "{" || fbrace m) then set_dp (set_fdo m true (fglob m) true) (dp m ++ [MAGIC]) else m)
  else if ceq c "=" then finish (if negb (temp (f m)) && negb (saw_eq m) then set_til m true true false else m)
  else if ceq c ":" then finish (if negb (temp (f m)) && asn (f m) then set_til m (saw_eq m) true false else m)
  else if ceq c "~" then
    match ty m with
    | XBASE => if (dotilde (f m) || asn (f m)) && tok2 m then
                 match maybe_tilde m with Some m => Next m | None => finish m end
               else finish m
    | _ => finish m
    end
  else finish m.

(** eval.c:580-721 *)
Definition char_out (m : st) (c : char) (q magic : bool) : out :=
  if is_nul c || (negb q && blank (f m) && negb (doblank m =? 0) && negb magic && c_ifs (ifs y (env m)) c) then split_at m c
  else put m c q magic.

(** varsub: eval.c:736-879 *)
Inductive vres := VBad | VErr | VOob | V (t : source) (s : styp) (slen : nat) (var : option cstr).
Definition at0 (w : cstr) : option char := match w with [] => None | c :: _ => Some c end.
Definition char_at (w : cstr) : char := match w with k :: c :: _ => if ceq k CHAR then c else NUL | _ => NUL end.
Definition vector (n : cstr) : option bool :=     (* name[*] or name[@]; true: @ *)
  (fix go (n : cstr) := match n with
   | [] => None
   | c :: r => if ceq c "[" then match r with a :: b :: _ => if (ceq a "*" || ceq a "@") && ceq b "]" then Some (ceq a "@") else None | _ => None end
               else go r end) n.
Definition is_subop1 (c : char) : bool := mem c (L "=-+?").
Definition is_subop2 (c : char) : bool := mem c (L "#%").
Definition qualifier (w : cstr) : option (styp * nat) :=    (* None: : without operator *)
  let c := char_at w in
  let '(slen, colon, c) := if ceq c ":" then (2%nat, true, char_at (skipn 2 w)) else (O, false, c) in
  if is_subop1 c then Some (Some (colon, c), (slen + 2)%nat)
  else if is_subop2 c then
    let slen := (slen + 2)%nat in
    if ceq c (char_at (skipn slen w)) then Some (Some (true, c), (slen + 2)%nat) else Some (Some (false, c), slen)
  else if colon then None else Some (None, O).
Definition star_or_at (n : cstr) : option bool := match n with c :: _ => if ceq c "@" then Some true else if ceq c "*" then Some false else None | [] => None end.
Definition length_sub (e : E) (n : cstr) : vres :=
  let '(k, ok) := match vector n with
                  | Some _ => (length (elems y e n), array_set y e n)
                  | None => match star_or_at n with
                            | Some _ => (length (params y e), false)
                            | None => match value y e n with Some s => (length s, true) | None => (O, false) end end end in
  if nounset y e && (k =? 0)%nat && negb ok then VErr
  else match u64ton (Z.of_nat k) 10 with Ok s => V (XSUB false s) None O None | _ => VOob end.
Definition op_of (t : styp) : char := match t with Some (_, c) => c | None => NUL end.
Definition arg_source (l : list cstr) (at_ : bool) : source :=
  match l with [] => if at_ then XNULLSUB else XSUB false [] | s :: r => XARG false s r at_ end.
(** the value, as [*xp->str=='\0'] and [xp->str==null] see it *)
Definition varsub (e : E) (n w : cstr) : vres :=
  match n with
  | [] => VBad
  | c :: r =>
    match at0 w with
    | None => VOob
    | Some w0 =>
    if ceq c "#" && negb (match r with [] => true | _ => false end) then if ceq w0 CSUBST then length_sub e r else VBad
    else
      match qualifier w with
      | None => VBad
      | Some (t, slen) =>
        if (match t with None => true | _ => false end) && negb (ceq w0 CSUBST) then VBad
        else
          let o := op_of t in
          let go (src : source) (str : option cstr) (var : option cstr) (zero_ok : bool) : vres :=
            let undef := match t with Some (true, _) => match str with Some (_ :: _) => false | _ => true end | _ => match str with None => true | _ => false end end in
            let base := is_subop2 o || (if undef then ceq o "=" || ceq o "-" || ceq o "?" else ceq o "+") in
            if nounset y e && (match str with None => true | _ => false end) && negb zero_ok && (is_subop2 o || (negb base && negb (ceq o "+"))) then VErr
            else V (if base then XBASE else src) t slen var in
          match star_or_at n with
          | Some a =>
            if ceq o "=" || ceq o "%" || ceq o "#" then VBad
            else match params y e with
                 | [] => go (arg_source [] a) None (Some n) true
                 | s :: r => go (arg_source (s :: r) a) (Some s) None true
                 end
          | None =>
            match vector n with
            | Some a =>
              if ceq o "=" || ceq o "%" || ceq o "#" || ceq o "?" then VBad
              else match elems y e n with
                   | [] => go (arg_source [] a) None None false
                   | s :: r => go (arg_source (s :: r) a) (Some s) None false
                   end
            | None =>
              if ceq o "=" && (mem c (L "*@#!$-?") || isdigit c) then VBad
              else go (XSUB false (match value y e n with Some s => s | None => [] end)) (value y e n) (Some n) false
            end
          end
      end
    end
  end.

(** strchr(sp, 0): the text and what is after its null byte *)
Fixpoint to_nul (w : cstr) : option (cstr * cstr) :=
  match w with
  | [] => None
  | c :: r => if is_nul c then Some ([], r) else match to_nul r with Some (a, b) => Some (c :: a, b) | None => None end
  end.
Definition to_short (z : Z) : Z := (z + 32768) mod 65536 - 32768.
Definition how_of (t : styp) : how :=
  match t with
  | Some (d, c) => if ceq c "#" then if d then LongPre else ShortPre else if d then LongSuf else ShortSuf
  | None => ShortPre end.

(** OSUBST, the beginning: eval.c:310-314 *)
Definition began (m : st) (t : source) : st :=
  let m := no_tilde (up (set_ty m t)) in
  match word m, t with QUOTE, XNULLSUB => m | QUOTE, _ => set_word m WORD | _, _ => m end.
(** OSUBST, to expand the word in it: eval.c:316-384; [w]: after the name *)
Definition open_word (m : st) (s : styp) (slen : nat) (var : option cstr) (w : cstr) : out :=
  let fl := f m in
  let m := set_stk m (Sub s (to_short (Z.of_nat (length (dp m)))) fl var (quote m) :: stk m) in
  let m := set_sp m (skipn slen w) in
  let o := op_of s in
  if is_subop2 o then
    let m := set_quote (set_f m (F false false true false false (dont fl) false true false)) false in
    Next (set_dp m (dp m ++ [MAGIC; hi_of "@"]))
  else if ceq o "=" then
    match var with
    | None => Bad
    | Some x =>
      let tl := negb (is_int y (env m) x) in
      let m := set_f m (F false false (pat fl) (dotilde fl || tl) (asn fl || tl) (dont fl) false true (markd fl)) in
      Next (set_til m (saw_eq m) true false)
    end
  else
    let fl := if ceq o "?" then F false (glob fl) (pat fl) (dotilde fl) (asn fl) (dont fl) (brace fl) true (markd fl) else fl in
    let m := if quote m then set_word m WORD else match dp m with [] => set_word m IWS | _ => m end in
    let m := set_f m (F (blank fl) (glob fl) (pat fl) true (asn fl) (dont fl) (brace fl) (temp fl) (markd fl)) in
    Next (set_til m (saw_eq m) true false).
(** OSUBST: eval.c:284-389; [m]: sp after the code *)
Definition open_sub (m : st) : out :=
  match sp m with
  | [] => Bad
  | _ :: w =>
    match to_nul w with
    | None => Bad
    | Some (n, w) =>
      match varsub (env m) n w with
      | VBad | VErr => Err (env m)
      | VOob => Bad
      | V t s slen var =>
        let m := began m t in
        match t with
        | XBASE => open_word m s slen var w
        | _ => match wdscan w CSUBST with WAt r => Next (set_sp m r) | WOob => Bad end
        end
      end
    end
  end.

(** CSUBST: eval.c:390-469; [m]: sp after the code *)
Definition close_sub (m : st) : out :=
  match sp m, stk m with
  | _ :: w, s :: stk' =>
    let m := no_tilde (set_sp m w) in
    let m := down (set_f (set_quote m (s_quote s)) (s_f s)) in
    let o := op_of (s_type s) in
    let cut := if (0 <=? s_base s) && (s_base s <=? Z.of_nat (length (dp m))) then Some (firstn (Z.to_nat (s_base s)) (dp m), skipn (Z.to_nat (s_base s)) (dp m)) else None in
    if is_subop2 o then
      match cut, s_var s with
      | Some (d, p), Some x =>
        match trimsub (match value y (env m) x with Some v => v | None => [] end) (p ++ [MAGIC; ")"%char]) (how_of (s_type s)) with
        | Ok (r, _) =>
          let m := set_dp m d in
          let m := match r with
                   | _ :: _ => set_ty (set_word m IWS) (XSUB false r)
                   | [] => if quote m then set_ty (set_word m WORD) (XSUB false r)
                           else set_ty (match d with [] => set_word m IWS | _ => m end) XNULLSUB
                   end in
          Next (set_stk (up m) stk')
        | _ => Bad
        end
      | _, _ => Bad
      end
    else if ceq o "=" then
      match cut, s_var s with
      | Some (d, p), Some x =>
        match assign y (env m) x (debunk p) with
        | None => Err (env m)
        | Some (e, v) =>
          let m := set_ty (set_dp (set_env m e) d) (XSUB false v) in
          let m := set_stk (up m) stk' in
          Next (set_word m (if quote m then WORD else match v with [] => WORD | _ => IWS end))
        end
      | _, _ => Bad
      end
    else if ceq o "?" then match s_var s with Some _ => Err (env m) | None => Bad end
    else Next (set_ty (set_stk m stk') XBASE)
  | _, _ => Bad
  end.

(** reading the output of a command: null bytes are dropped, newlines kept back (555-557) *)
Fixpoint skip_nl (o : cstr) (nl : nat) : nat * cstr :=
  match o with
  | [] => (nl, [])
  | c :: r => if is_nul c then skip_nl r nl else if ceq c NL then skip_nl r (S nl) else (nl, o)
  end.

Definition step (m : st) : out :=
  match ty m with
  | XBASE =>
    match sp m with
    | [] => Bad
    | k :: w =>
      let m := set_sp m w in
      if ceq k EOS then char_out m NUL (quote m) false
      else if ceq k CHAR then match w with [] => Bad | c :: w => char_out (set_sp m w) c (quote m) false end
      else if ceq k QCHAR then match w with [] => Bad | c :: w => char_out (set_sp m w) c true false end
      else if ceq k OQUOTE then
        Next (set_quote (no_tilde (set_word m (match word m with QUOTE | WORD => WORD | _ => QUOTE end))) true)
      else if ceq k CQUOTE then Next (set_quote m false)
      else if ceq k COMSUB then
        match to_nul w with
        | None => Bad
        | Some (t, r) =>
          let m := no_tilde m in
          if dont (f m) then Next (set_sp (set_dp (set_word m WORD) (dp m ++ L "$(" ++ t ++ L ")")) (NUL :: r))
          else match command y (env m) t with
               | None => Err (env m)
               | Some (e, None) => Next (set_sp (set_env m e) r)
               | Some (e, Some o) => Next (set_sp (set_ty (up (set_env m e)) (XCOM 0 o)) r)
               end
        end
      else if ceq k EXPRSUB then
        match to_nul w with
        | None => Bad
        | Some (t, r) =>
          let m := no_tilde (set_word m WORD) in
          if dont (f m) then Next (set_sp (set_dp m (dp m ++ L "$((" ++ t ++ L "))")) (NUL :: r))
          else match arith y (env m) t with
               | None => Err (env m)
               | Some (e, v) => Next (set_sp (set_dp (set_env m e) (dp m ++ v)) r)
               end
        end
      else if ceq k OSUBST then open_sub m
      else if ceq k CSUBST then close_sub m
      else if ceq k OPAT then match w with [] => Bad | c :: w => char_out (set_sp m w) (hi_of c) (quote m) true end
      else if ceq k SPAT then char_out m "|"%char (quote m) true
      else if ceq k CPAT then char_out m ")"%char (quote m) true
      else char_out m k (quote m) false      (* an unknown code is put out itself *)
    end
  | XNULLSUB =>
    let m := set_ty m XBASE in
    if blank (f m) then
      let m := down m in
      Next (match dp m, word m with [], WORD => m | [], _ => set_word m IWS | _, _ => m end)
    else Next m
  | XSUB mid s =>
    match s with
    | [] => Next (down (set_ty m XBASE))
    | c :: r => char_out (set_ty m (XSUB mid r)) c (quote m) false
    end
  | XARG sep s rest split =>
    let m := if sep then set_quote m true else m in
    match s with
    | c :: r => char_out (set_ty m (XARG false r rest split)) c (quote m) false
    | [] =>
      let m := if quote m && split then set_word m WORD else m in
      match rest with
      | [] => Next (down (set_ty m XBASE))
      | s :: rest =>
        let c := ifs0 (ifs y (env m)) in
        let m := set_ty m (XARG false s rest split) in
        if is_nul c then
          if quote m && negb split then Next m
          else if negb (quote m) && match word m with WS => true | _ => false end then Next m
          else Next (after_split (emit_word m) SP)
        else if quote m && split then char_out (set_quote (set_ty m (XARG true s rest split)) false) c false false
        else char_out m c (quote m) false
      end
    end
  | XCOM (S nl) o => char_out (set_ty m (XCOM nl o)) NL (quote m) false
  | XCOM O o =>
    match skip_nl o O with
    | (_, []) => Next (down (set_ty m XBASE))
    | (S nl, o) => char_out (set_ty m (XCOM nl o)) NL (quote m) false
    | (O, c :: o) => char_out (set_ty m (XCOM O o)) c (quote m) false
    end
  end.

Fixpoint run (n : nat) (m : st) : out :=
  match n with
  | O => Next m
  | S n => match step m with Next m => run n m | r => r end
  end.

(** eval.c:185-203: the start; [noglob], [markdirs], [braces]: the shell options *)
Definition enter (noglob markdirs braces : bool) (fl : flags) : flags :=
  let g := glob fl && negb noglob in
  F (blank fl) g (pat fl) (dotilde fl) (asn fl) (dont fl) (brace fl || (braces && g)) (temp fl) (markd fl || markdirs).
Definition start (noglob markdirs braces : bool) (fl : flags) (e : E) (w : cstr) : st :=
  let fl := enter noglob markdirs braces fl in
  St e w XBASE false [] false false false (if blank fl then WS else WORD) 0 [] false (dotilde fl || asn fl) false fl [].
End Machine.

(** eval.c:600-610, without alt_expand and glob ([None]) *)
Definition second (r : raw) : option cstr :=
  if r_brace r || r_glob r then None
  else Some (if r_pat r || negb (r_magic r) then r_text r else debunk (r_text r)).
(** evalstr (eval.c:114): the first word, if there is one *)
Definition evalstr_of (l : list raw) : option cstr := match l with [] => Some [] | r :: _ => second r end.
