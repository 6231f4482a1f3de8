(** Spoken English amounts, and the rules of examples/builtin/builtin.grammar. *)
From Verif Require Import Base ModelTypes ModelText ModelEarley ModelTrees ModelApi ModelReader ModelLocal
  SpecTypes SpecGrammar SpecTree SpecNotation SpecRefine SpecLocal SpecMeaning SpecArith SpecWorth SpecEnglish SpecChinese.
Local Open Scope list_scope.

(** ** Amounts *)
Definition b_units : list (string * Z) :=
  [("zero", 0); ("o", 0); ("one", 1); ("a", 1); ("an", 1); ("two", 2); ("three", 3); ("four", 4); ("five", 5); ("six", 6); ("seven", 7); ("eight", 8); ("nine", 9)]%string%Z.
Definition few_magnitudes : list (string * Z) := [("hundred", 10 ^ 2); ("thousand", 10 ^ 3); ("million", 10 ^ 6); ("billion", 10 ^ 9)]%string%Z.
Definition vast_magnitudes : list (string * Z) :=
  [("trillion", 10 ^ 12); ("quadrillion", 10 ^ 15); ("quintillion", 10 ^ 18); ("sextillion", 10 ^ 21); ("septillion", 10 ^ 24); ("octillion", 10 ^ 27);
   ("nonillion", 10 ^ 30); ("decillion", 10 ^ 33)]%string%Z.
Definition magnitudes : list (string * Z) := few_magnitudes ++ vast_magnitudes.

(** up to 99 *)
Inductive count : list string -> Z -> Prop :=
| co_unit w z : In (w, z) b_units -> count [w] z
| co_teen w z : In (w, z) teens -> count [w] z
| co_tens w z : In (w, z) tens -> count [w] z
| co_both w z l u k : In (w, z) tens -> In l [[]; ["and"]; ["-"]; [","]]%string -> In (u, k) b_units -> count (w :: l ++ [u]) (z + k).
Definition dash (l : list string) : Prop := l = [] \/ l = ["-"%string].
(** a count times magnitudes *)
Inductive multiple : list string -> Z -> Prop :=
| mu_one ws z l m s : count ws z -> dash l -> In (m, s) magnitudes -> multiple (ws ++ l ++ [m]) (z * s)
| mu_more ws z m s : multiple ws z -> In (m, s) magnitudes -> multiple (ws ++ [m]) (z * s).
(** The words [ws] are a sum of counts and multiples, [z]. *)
Inductive spoken : list string -> Z -> Prop :=
| sp_one ws z : count ws z \/ multiple ws z -> spoken ws z
| sp_more ws z l ws' z' : count ws z \/ multiple ws z -> joint l -> spoken ws' z' -> spoken (ws ++ l ++ ws') (z + z').

(** No multiple of tens and a unit without a hyphen, as in "fifty six thousand" *)
Definition plain (ws : list string) : Prop := forall pre t l u h m post, ws = pre ++ t :: l ++ u :: h ++ m :: post ->
  In t (map fst tens) -> joint l -> In u (map fst b_units) -> dash h -> ~ In m (map fst magnitudes).
(** no trillions and above *)
Definition not_vast (ws : list string) : Prop := Forall (fun w => ~ In w (map fst vast_magnitudes)) ws.

Definition b_words : list string := map fst b_units ++ map fst teens ++ map fst tens ++ map fst magnitudes ++ ["and"; "-"; ","]%string.

(** ** The rules of the file *)
Definition ordinal_units : list (string * Z) :=
  [("first", 1); ("second", 2); ("third", 3); ("fourth", 4); ("fifth", 5); ("sixth", 6); ("seventh", 7); ("eighth", 8); ("ninth", 9)]%string%Z.
Definition ordinal_teens : list (string * Z) :=
  [("tenth", 10); ("eleventh", 11); ("twelfth", 12); ("thirteenth", 13); ("fourteenth", 14); ("fifteenth", 15); ("sixteenth", 16); ("seventeenth", 17);
   ("eighteenth", 18); ("nineteenth", 19)]%string%Z.
Definition ordinal_tens : list (string * Z) :=
  [("twentieth", 20); ("thirtieth", 30); ("fortieth", 40); ("fiftieth", 50); ("sixtieth", 60); ("seventieth", 70); ("eightieth", 80); ("ninetieth", 90)]%string%Z.
Definition b_two (o : operation) (x y : string) : rulebody := mkRb [nonterm x; nonterm y] (call2 o (part 1) (part 2)).
Definition b_joined (o : operation) (x w y : string) : rulebody := mkRb [nonterm x; word w; nonterm y] (call2 o (part 1) (part 3)).
Definition builtin_rules : list (string * list rulebody) :=
  [("cardinal_unit", map number_body b_units); ("cardinal_ten", map number_body teens);
   ("ordinal_unit", map number_body ordinal_units); ("ordinal_ten", map number_body ordinal_teens);
   ("cardinal_tens", map number_body tens); ("ordinal_tens", map number_body ordinal_tens);
   ("magnitude", map number_body magnitudes);
   ("base_number", [up "cardinal_unit"; up "cardinal_ten"; up "cardinal_tens"; b_two Plus "cardinal_tens" "cardinal_unit"; b_joined Plus "cardinal_tens" "and" "cardinal_unit";
                    b_joined Plus "cardinal_tens" "-" "cardinal_unit"; b_joined Plus "cardinal_tens" "," "cardinal_unit"]);
   ("magnitude_number", [b_two Times "base_number" "magnitude"; b_joined Times "base_number" "-" "magnitude"; b_two Times "magnitude_number" "magnitude"]);
   ("section", [up "magnitude_number"; up "base_number"]);
   ("number", [up "section"; b_two Plus "section" "number"; b_joined Plus "section" "and" "number"])]%string.
Definition builtin_items : list item := map (fun r => mkItem false (fst r) (snd r)) builtin_rules.
(** the rules that numbers are made of *)
Definition amount_names : list string :=
  ["cardinal_unit"; "cardinal_ten"; "cardinal_tens"; "magnitude"; "base_number"; "magnitude_number"; "section"; "number"]%string.

(** The words [ws] say [z] in the usual way: a tens word and the unit after it, with or without "and", are one count. *)
Inductive merged : list string -> Z -> Prop :=
| me_one ws z : count ws z \/ multiple ws z -> merged ws z
| me_more ws z l ws' z' : count ws z \/ multiple ws z -> joint l -> merged ws' z' ->
    (In (last ws ""%string) (map fst tens) -> ~ In (hd ""%string ws') (map fst b_units)) -> merged (ws ++ l ++ ws') (z + z').
