(** What examples/arithmetic should compute: readings of texts as arithmetic expressions. *)
From Verif Require Import Base ModelTypes ModelText ModelEarley ModelTrees ModelApi ModelQuote ModelSem ModelMath ModelFuncs ModelLocal
  SpecTypes SpecGrammar SpecRefine SpecFuncs SpecMath SpecMeaning.

Inductive operation := Minus | Plus | Times.
Inductive expression :=
| Number (z : Z)
| Binary (o : operation) (x y : expression)
| Negative (x : expression).

Fixpoint value (x : expression) : Z :=
  match x with
  | Number z => z
  | Binary Minus x y => value x - value y
  | Binary Plus x y => value x + value y
  | Binary Times x y => value x * value y
  | Negative x => - value x
  end%Z.
(** The text for the JavaScript machine *)
Definition function_name (o : operation) : string :=
  match o with Minus => "nf.math.sub" | Plus => "nf.math.sum" | Times => "nf.math.mul" end.
Fixpoint formula (x : expression) : string :=
  match x with
  | Number z => dec_Z z
  | Binary o x y => call_text (function_name o) [formula x; formula y]
  | Negative x => call_text "nf.math.neg" [formula x]
  end.
(** Values of at most ten digits, and no zero with a minus sign *)
Fixpoint tame (x : expression) : Prop :=
  match x with
  | Number z => True
  | Binary o x y => tame x /\ tame y /\ small (value (Binary o x y)) /\
      (o = Times -> (value x * value y = 0 -> 0 <= value x /\ 0 <= value y)%Z)
  | Negative x => tame x /\ value x <> 0%Z
  end.

(** Readings in which every operator works on all that stands before it *)
Fixpoint left_to_right (x : expression) : Prop :=
  match x with
  | Number _ => True
  | Binary _ x y => left_to_right x /\ exists z, y = Number z
  | Negative x => exists z, x = Number z
  end.

(** The words of the language *)
Definition numbers : list (string * Z) :=
  [("one", 1); ("two", 2); ("three", 3); ("four", 4); ("five", 5); ("six", 6); ("seven", 7); ("eight", 8); ("nine", 9); ("ten", 10);
   ("一", 1); ("二", 2); ("三", 3); ("四", 4); ("五", 5); ("六", 6); ("七", 7); ("八", 8); ("九", 9); ("十", 10)]%string%Z.
Definition operators : list (string * operation) :=
  [("minus", Minus); ("减", Minus); ("plus", Plus); ("add", Plus); ("加", Plus);
   ("times", Times); ("multiply by", Times); ("乘", Times)]%string.
Definition signs : list string := ["minus"; "负"]%string.
Definition vocabulary : list string := map fst numbers ++ map fst operators ++ signs.

Section Reads.
  Variable tokenize : string -> res (list token).
  Variable tmatch : term -> option token -> bool.
  Variable toks : list token.
  (** The tokens i, ..., j-1 are those of the phrase [w], white space aside. *)
  Definition phrase (w : string) (i j : nat) : Prop :=
    exists ks, tokenize w = Ret ks /\ words_match tmatch toks (token_terms MNil ks) i j.
  (** The tokens i, ..., j-1 can be read as [x]. *)
  Inductive reads : expression -> nat -> nat -> Prop :=
  | rd_number w z i j : In (w, z) numbers -> phrase w i j -> reads (Number z) i j
  | rd_binary w o x y i j k l : In (w, o) operators -> reads x i j -> phrase w j k -> reads y k l ->
      reads (Binary o x y) i l
  | rd_negative w x i j k : In w signs -> phrase w i j -> reads x j k -> reads (Negative x) i k.
End Reads.

(** The alternatives these words stand for in a grammar *)
Definition word (w : string) : term := mkTerm w TTerminal MNil.
Definition part (k : Z) : arg := Arg "index" (VIdx k).
Definition number_body (wz : string * Z) : rulebody :=
  mkRb [word (fst wz)] (Some (FMR "nf.I" [Arg "int" (VInt (snd wz))])).
Definition operator_body (wo : string * operation) : rulebody :=
  mkRb [nonterm "number"; word (fst wo); nonterm "number"] (Some (FMR (function_name (snd wo)) [part 1; part 3])).
Definition sign_body (w : string) : rulebody :=
  mkRb [word w; nonterm "number"] (Some (FMR "nf.math.neg" [part 2])).
Definition bodies : list rulebody := map number_body numbers ++ map operator_body operators ++ map sign_body signs.

(** Every word has a token that is not white space. *)
Definition words_have_tokens (tokenize : string -> res (list token)) : Prop :=
  forall w ks, In w vocabulary -> tokenize w = Ret ks -> exists k, In k ks /\ tok_type k <> KSpace.

(** The tree [t] of parse [p] shows [x]: Semantic gives its formula, Eval its value. *)
Definition shows (p : parse_t) join_words float_string json is_print_hi (rcall : string -> list dval -> res (list dval))
    (t : node) (x : expression) : Prop :=
  semantic p join_words float_string json is_print_hi (Call rcall) t = Ret (formula x) /\
  (tame x -> exists s, numeral (value x) s /\ eval p join_words float_string (Call rcall) t = Ret (DStr s)).
