(** C53: NUL bytes are removed from input, nothing else. *)
From Verif Require Import Base StripNuls_model StripNuls_proof.

(** For every byte buffer: stripping returns; the returned length counts the
    non-NUL bytes; the front of the buffer of that length is the original with
    its NUL bytes left out; the buffer does not change size; and if anything was
    removed the text is NUL-terminated. *)
Theorem c53_strip_nuls_is_filter (buf : list char) :
  exists b n, strip_nuls buf = Some (b, n) /\
    n = length (filter (fun c => negb (Ascii.eqb c "000")) buf) /\
    length b = length buf /\
    firstn n b = filter (fun c => negb (Ascii.eqb c "000")) buf /\
    (n < length buf -> nth n b SP = "000"%char).
Proof. exact (strip_nuls_correct buf). Qed.
Print Assumptions c53_strip_nuls_is_filter.

Example c53_example :
  strip_nuls [NUL; "a"; NUL; NUL; "b"; "c"; NUL]%char
  = Some (["a"; "b"; "c"; NUL; "b"; "c"; NUL]%char, 3).
Proof. reflexivity. Qed.
