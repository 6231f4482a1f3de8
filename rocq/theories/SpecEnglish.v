(** English numerals, and the rules of examples/math/grammars/number.en.grammar. *)
From Verif Require Import Base ModelTypes ModelText ModelEarley ModelTrees ModelApi ModelReader ModelLocal
  SpecTypes SpecGrammar SpecTree SpecNotation SpecRefine SpecLocal SpecMeaning SpecArith SpecWorth.
Local Open Scope list_scope.

(** ** Numerals in words *)
Definition units : list (string * Z) :=
  [("zero", 0); ("one", 1); ("two", 2); ("three", 3); ("four", 4); ("five", 5); ("six", 6); ("seven", 7); ("eight", 8); ("nine", 9)]%string%Z.
Definition teens : list (string * Z) :=
  [("ten", 10); ("eleven", 11); ("twelve", 12); ("thirteen", 13); ("fourteen", 14); ("fifteen", 15); ("sixteen", 16); ("seventeen", 17);
   ("eighteen", 18); ("nineteen", 19)]%string%Z.
Definition tens : list (string * Z) :=
  [("twenty", 20); ("thirty", 30); ("forty", 40); ("fifty", 50); ("sixty", 60); ("seventy", 70); ("eighty", 80); ("ninety", 90)]%string%Z.
Definition scales : list (string * Z) :=
  [("trillion", 1000000000000); ("billion", 1000000000); ("million", 1000000); ("thousand", 1000)]%string%Z.

Inductive below_hundred : list string -> Z -> Prop :=
| bh_unit w z : In (w, z) units -> z <> 0%Z -> below_hundred [w] z
| bh_teen w z : In (w, z) teens -> below_hundred [w] z
| bh_tens w z : In (w, z) tens -> below_hundred [w] z
| bh_both w z u k : In (w, z) tens -> In (u, k) units -> k <> 0%Z -> below_hundred [w; u] (z + k)
| bh_hyphen w z u k : In (w, z) tens -> In (u, k) units -> k <> 0%Z -> below_hundred [w; "-"%string; u] (z + k).
(** an optional "and" *)
Definition joint (l : list string) : Prop := l = [] \/ l = ["and"%string].
Inductive below_thousand : list string -> Z -> Prop :=
| bt_small ws z : below_hundred ws z -> below_thousand ws z
| bt_hundreds w z : In (w, z) units -> z <> 0%Z -> below_thousand [w; "hundred"%string] (z * 100)
| bt_both w z l ws k : In (w, z) units -> z <> 0%Z -> joint l -> below_hundred ws k ->
    below_thousand (w :: "hundred"%string :: l ++ ws) (z * 100 + k).
(** Groups below a thousand, each with its scale, from the largest scale to the smallest. *)
Inductive grouped : list (string * Z) -> list string -> Z -> Prop :=
| gr_last ws z : below_thousand ws z -> grouped [] ws z
| gr_skip s sc ws z : grouped sc ws z -> grouped (s :: sc) ws z
| gr_exact w s sc ws z : below_thousand ws z -> grouped ((w, s) :: sc) (ws ++ [w]) (z * s)
| gr_both w s sc ws z l ws' z' : below_thousand ws z -> joint l -> grouped sc ws' z' ->
    grouped ((w, s) :: sc) (ws ++ w :: l ++ ws') (z * s + z').
(** The words [ws] are a numeral of [z]. *)
Definition english (ws : list string) (z : Z) : Prop := ws = ["zero"%string] /\ z = 0%Z \/ grouped scales ws z.

(** ** The words as tokens of a document *)
Definition number_words : list string :=
  map fst units ++ map fst teens ++ map fst tens ++ map fst scales ++ ["hundred"; "and"; "-"; "point"]%string.

(** ** The rules of the file *)
Definition level (low scale : string) : list rulebody :=
  [mkRb [nonterm low] (call1 (part 1)); mkRb [nonterm scale] (call1 (part 1));
   mkRb [nonterm low; nonterm scale] (call2 Times (part 1) (part 2));
   mkRb [nonterm low; nonterm scale; nonterm low] (call2 Plus product12 (part 3));
   mkRb [nonterm low; nonterm scale; word "and"; nonterm low] (call2 Plus product12 (part 4))].
Definition english_rules : list (string * list rulebody) :=
  [("unit", map number_body units);
   ("numbers", [mkRb [nonterm "unit"] (call1 (part 1)); mkRb [nonterm "unit"; nonterm "numbers"] (Some (FMR "nf.util.concat" [part 1; part 2]))]);
   ("ten", map number_body teens);
   ("tens", map number_body tens);
   ("e1", [mkRb [nonterm "unit"] (call1 (part 1)); mkRb [nonterm "ten"] (call1 (part 1)); mkRb [nonterm "tens"] (call1 (part 1));
           mkRb [nonterm "tens"; nonterm "unit"] (call2 Plus (part 1) (part 2));
           mkRb [nonterm "tens"; word "-"; nonterm "unit"] (call2 Plus (part 1) (part 3))]);
   ("e2", [number_body ("hundred", 100%Z)]); ("e3", [number_body ("thousand", 1000%Z)]); ("e6", [number_body ("million", 1000000%Z)]);
   ("e9", [number_body ("billion", 1000000000%Z)]); ("e12", [number_body ("trillion", 1000000000000%Z)]);
   ("e2s", level "e1" "e2"); ("e3s", level "e2s" "e3"); ("e6s", level "e3s" "e6"); ("e9s", level "e6s" "e9"); ("e12s", level "e9s" "e12");
   ("en_decimal", [mkRb [word "point"; nonterm "numbers"] (Some (FMR "nf.math.decimal" [part 2]))]);
   ("en_number", [mkRb [nonterm "e12s"] (call1 (part 1))]);
   ("number", [mkRb [nonterm "en_number"] (call1 (part 1)); mkRb [nonterm "en_decimal"] (call1 (part 1));
               mkRb [nonterm "en_number"; nonterm "en_decimal"] (call2 Plus (part 1) (part 2));
               mkRb [nonterm "en_number"; word "and"; nonterm "en_decimal"] (call2 Plus (part 1) (part 3))])]%string.
Definition english_names : list string := map fst english_rules.
Definition english_items : list item := map (fun r => mkItem false (fst r) (snd r)) english_rules.

(** The functions of the table (math_funcs.go:10-20, funcs.go:11-14) *)
Definition registered_names : list string :=
  ["nf.math.sum"; "nf.math.sub"; "nf.math.mul"; "nf.math.div"; "nf.math.pow"; "nf.math.neg"; "nf.math.even"; "nf.math.odd"; "nf.math.prime"; "fmr.list"; "fmr.entity"]%string.
