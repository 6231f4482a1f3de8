(** Printed states and the grammar notation. *)
From Verif Require Import Base ModelTypes ModelText ModelQuote ModelEarley SpecNotation SpecString.
Local Open Scope list_scope.

Section Writable.
  Variables letter digit : rune -> bool.
  Variable printable : rune -> bool.
  Variable regexp_ok : string -> bool.
  Variable md5 : string -> string.

  (** Terms with names of the notation and texts of printable characters. *)
  Definition a_name (s : string) : Prop := exists x, Forall good x /\ name_text letter digit x /\ s = encode x.
  Definition writable_term (t : term) : Prop :=
    match t_type t with
    | TNonterminal | TList => a_name (t_value t)
    | TTerminal => exists cs, plain_text printable cs /\ t_value t = encode cs
    | TAny => t_value t = "any"%string
    | TEOF => False
    end.
  (** [s] is the term in the grammar notation, without flags or range. *)
  Definition writes (t : term) (s : string) : Prop :=
    exists w, Forall good w /\ encode w = s /\ w_term letter digit regexp_ok md5 (mkTerm (t_value t) (t_type t) MNil) [] w.
  (** The function that an alternative without one has. *)
  Definition shown_function (f : option fmr) : fmr :=
    match f with Some f => f | None => FMR "nf.I" [Arg "index" (VIdx 0)] end.

  (** Texts with a dot before number [k]. *)
  Definition dotted (k : nat) (l : list string) : string :=
    (String.concat "" (map (fun s => s ++ " ") (firstn k l)) ++ "•"
     ++ match skipn k l with [] => "" | l' => String.concat "" (map (fun s => " " ++ s) l') ++ " " end)%string.
  (** $1,$2,...,$n *)
  Definition numbered (n : nat) : string := String.concat "," (map (fun i => "$" ++ dec_N (N.of_nat i))%string (seq 1 n)).
End Writable.
