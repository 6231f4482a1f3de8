(** Simple Chinese numerals, and the rules of examples/builtin/cn_num.grammar. *)
From Verif Require Import Base ModelTypes ModelText ModelEarley ModelTrees ModelApi ModelReader ModelLocal
  SpecTypes SpecGrammar SpecTree SpecNotation SpecRefine SpecLocal SpecMeaning SpecArith SpecWorth SpecChinese.
Local Open Scope list_scope.

(** ** Simple numerals *)
Definition s_units : list (string * Z) :=
  [("一", 1); ("二", 2); ("三", 3); ("四", 4); ("五", 5); ("六", 6); ("七", 7); ("八", 8); ("九", 9)]%string%Z.
Inductive s_one : list string -> Z -> Prop := so_unit w z : In (w, z) s_units -> s_one [w] z.
Inductive s_tens : list string -> Z -> Prop :=
| st_unit w z : In (w, z) s_units -> s_tens [w] z
| st_ten : s_tens ["十"%string] 10
| st_tens w z : In (w, z) s_units -> s_tens [w; "十"%string] (z * 10)
| st_both w z u k : In (w, z) s_units -> In (u, k) s_units -> s_tens [w; "十"%string; u] (z * 10 + k).
(** A multiple of [s] with the word of [s], and what is left: any smaller numeral [L]
    directly, or one of [G] with a zero before it. *)
Section Scale.
  Variables P L G : list string -> Z -> Prop.
  Variable word : string.
  Variable s : Z.
  Inductive s_scale : list string -> Z -> Prop :=
  | ss_up ws z : L ws z -> s_scale ws z
  | ss_exact p a : P p a -> s_scale (p ++ [word]) (a * s)
  | ss_next p a q b : P p a -> L q b -> s_scale (p ++ word :: q) (a * s + b)
  | ss_gap p a o q b : P p a -> In o zeros -> G q b -> s_scale (p ++ word :: o :: q) (a * s + b).
End Scale.
Definition s_hundreds := s_scale s_one s_tens s_one "百" 100.
Definition s_thousands := s_scale s_one s_hundreds s_tens "千" 1000.
(** no zero after 万 *)
Definition s_myriads := s_scale s_thousands s_thousands (fun _ _ => False) "万" 10000.
(** The words [ws] are a simple numeral of [z]. *)
Definition simple : list string -> Z -> Prop := s_scale s_myriads s_myriads s_myriads "亿" 100000000.

Definition s_words : list string := map fst s_units ++ zeros ++ ["十"; "百"; "千"; "万"; "亿"]%string.

(** ** The rules of the file *)
Definition b_exact (p sc : string) : rulebody := mkRb [nonterm p; nonterm sc] (call2 Times (part 1) (part 2)).
Definition b_next (p sc lo : string) : rulebody := mkRb [nonterm p; nonterm sc; nonterm lo] (call2 Plus product12 (part 3)).
Definition b_gap (p sc lo : string) : rulebody := mkRb [nonterm p; nonterm sc; nonterm "cn_zero"; nonterm lo] (call2 Plus product12 (part 4)).
Definition cn_num_rules : list (string * list rulebody) :=
  [("cn_num_unit", map number_body s_units); ("cn_zero", all_worth 0 zeros);
   ("cn_num_10", all_worth 10 ["十"]); ("cn_num_100", all_worth 100 ["百"]); ("cn_num_1000", all_worth 1000 ["千"]);
   ("cn_num_10000", all_worth 10000 ["万"]); ("cn_num_100000000", all_worth 100000000 ["亿"]);
   ("cn_num_10s", [up "cn_num_10"; b_exact "cn_num_unit" "cn_num_10"; b_next "cn_num_unit" "cn_num_10" "cn_num_unit"; up "cn_num_unit"]);
   ("cn_num_100s", [b_exact "cn_num_unit" "cn_num_100"; b_next "cn_num_unit" "cn_num_100" "cn_num_10s";
                    b_gap "cn_num_unit" "cn_num_100" "cn_num_unit"; up "cn_num_10s"]);
   ("cn_num_1000s", [b_exact "cn_num_unit" "cn_num_1000"; b_next "cn_num_unit" "cn_num_1000" "cn_num_100s";
                     b_gap "cn_num_unit" "cn_num_1000" "cn_num_unit"; b_gap "cn_num_unit" "cn_num_1000" "cn_num_10s"; up "cn_num_100s"]);
   ("cn_num_10000s", [b_exact "cn_num_1000s" "cn_num_10000"; b_next "cn_num_1000s" "cn_num_10000" "cn_num_1000s"; up "cn_num_1000s"]);
   ("cn_num_yi", [b_exact "cn_num_10000s" "cn_num_100000000"; b_next "cn_num_10000s" "cn_num_100000000" "cn_num_10000s";
                  b_gap "cn_num_10000s" "cn_num_100000000" "cn_num_10000s"; up "cn_num_10000s"]);
   ("number", [up "cn_num_yi"])]%string.
Definition cn_num_names : list string := map fst cn_num_rules.
Definition cn_num_items : list item := map (fun r => mkItem false (fst r) (snd r)) cn_num_rules.
