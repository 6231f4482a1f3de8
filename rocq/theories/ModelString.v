(** Printing semantic functions. *)
From Verif Require Import Base ModelTypes ModelText ModelQuote.

Section Stringer.
  (** strconv.IsPrint above U+00FF; big.Float.String *)
  Variable is_print_hi : rune -> bool.
  Variable float_string : bigf -> string.

  (** earley_stringer.go:104-147 [FMR.String] of a non-nil function. [None] is
      the early return of "invalid_fmr" from the loop over the arguments. *)
  Fixpoint fmr_string (f : fmr) : string :=
    match f with
    | FMR fn args =>
        match (fix go (l : list arg) : option (list string) :=
                 match l with
                 | [] => Some []
                 | a :: l' =>
                     match arg_string a with
                     | None => None
                     | Some s => match go l' with None => None | Some ss => Some (s :: ss) end
                     end
                 end) args with
        | None => "invalid_fmr"
        | Some ss => fn ++ "(" ++ join "," ss ++ ")"
        end
    end
  (** earley_stringer.go:110-144 one round of the loop *)
  with arg_string (a : arg) : option string :=
    match a with
    | Arg ty v =>
        if String.eqb ty "string" then
          match v with VStr s => Some (quote is_print_hi s) | _ => None end
        else if String.eqb ty "int" then
          match v with VInt z => Some (dec_Z z) | _ => None end
        else if String.eqb ty "float" then
          match v with VFloat x => Some (float_string x) | _ => None end
        else if String.eqb ty "func" then
          match v with VFunc f => Some (fmr_string f) | _ => None end
        else if String.eqb ty "index" then
          match v with VIdx i => Some ("$" ++ dec_Z i) | _ => None end
        else None
    end%string.

  (** earley_stringer.go:104-107: the nil function prints as the identity *)
  Definition fmr_opt_string (f : option fmr) : string :=
    match f with None => "nf.I($0)" | Some f => fmr_string f end.
End Stringer.
