(** Arithmetic in English words: numerals with "plus", "minus" and "times" between them,
    and the rest of examples/math/grammars/math.en.grammar. *)
From Verif Require Import Base ModelTypes ModelText ModelEarley ModelTrees ModelApi ModelReader ModelGrammar ModelLocal
  SpecTypes SpecGrammar SpecTree SpecNotation SpecRefine SpecConstruct SpecLocal SpecMeaning ModelShipped SpecShipped SpecNames SpecArith SpecWorth SpecEnglish.
Local Open Scope list_scope.

Definition operator_words : list (string * operation) := [("plus", Plus); ("minus", Minus); ("times", Times)]%string.
(** The words are those of the number [n], and of further operations and numbers. *)
Inductive chain : list string -> Z -> list (operation * Z) -> Prop :=
| ch_one ws n : english ws n -> chain ws n []
| ch_more ws n w o ws' m rest : english ws n -> In (w, o) operator_words -> chain ws' m rest -> chain (ws ++ w :: ws') n ((o, m) :: rest).

(** The expressions that such a text can mean, one for each way to set brackets *)
Section Bracketing.
  Context {A : Type}.
  Variable leaf : A -> expression -> Prop.
  Inductive bracketing : A -> list (operation * A) -> expression -> Prop :=
  | br_leaf a x : leaf a x -> bracketing a [] x
  | br_split a l o b r x y : bracketing a l x -> bracketing b r y -> bracketing a (l ++ (o, b) :: r) (Binary o x y).
End Bracketing.
Definition meant (n : Z) (rest : list (operation * Z)) (x : expression) : Prop := bracketing (fun n x => x = Number n) n rest x.
Definition sum_of (n : Z) (rest : list (operation * Z)) : Z := fold_left (fun s om => (s + snd om)%Z) rest n.
(** The usual value: products first, then sums and differences from left to right *)
Fixpoint usual (sum sign prod : Z) (rest : list (operation * Z)) : Z :=
  match rest with
  | [] => sum + sign * prod
  | (Times, m) :: r => usual sum sign (prod * m) r
  | (Plus, m) :: r => usual (sum + sign * prod) 1 m r
  | (Minus, m) :: r => usual (sum + sign * prod) (-1) m r
  end%Z.
Definition usual_value (n : Z) (rest : list (operation * Z)) : Z := usual 0 1 n rest.

(** The other terminal texts of the rules <number> and <special_number> *)
Definition other_texts : list string :=
  ["pair"; "couple"; "dozen"; "percent"; "added to"; "sum of"; "the sum of"; "subtract"; "deduct"; "subtracted from";
   "divides"; "divided by"; "over"; "multiply by"; "multiply"; "product of"; "half of"; "raised to the power of"; "raised to the exponent of";
   "square of"; "cube of"; "square root of"; "cubic root of"]%string.
Definition sum_words : list string := number_words ++ map fst operator_words.
(** The tokenizer finds in [v] a word that is none of [V]. *)
Definition foreign (tokenize : string -> res (list token)) (V : list string) (v : string) : Prop :=
  exists ks k, tokenize v = Ret ks /\ In k ks /\ is_space_token k = false /\ ~ In (tok_text k) V.
(** The hash tells the alternatives of a rule in a file apart. *)
Definition hashes_apart (e : env) (text : string) : Prop :=
  forall x b b', alternative_in e text x b -> alternative_in e text x b' -> e_hash e b = e_hash e b' -> b = b'.
Definition sum_names : list string := "special_number"%string :: "numeric"%string :: english_names.
(** The expression with the brackets set from left to right, as a pocket calculator takes it *)
Definition from_left (n : Z) (rest : list (operation * Z)) : expression := fold_left (fun x om => Binary (fst om) x (Number (snd om))) rest (Number n).
