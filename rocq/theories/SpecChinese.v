(** Chinese numerals, and the rules of examples/math/grammars/number.zh.grammar. *)
From Verif Require Import Base ModelTypes ModelText ModelEarley ModelTrees ModelApi ModelReader ModelLocal
  SpecTypes SpecGrammar SpecTree SpecNotation SpecRefine SpecLocal SpecMeaning SpecArith SpecWorth.
Local Open Scope list_scope.

(** ** Numerals *)
Definition cn_units : list (string * Z) :=
  [("一", 1); ("二", 2); ("三", 3); ("四", 4); ("五", 5); ("六", 6); ("七", 7); ("八", 8); ("九", 9);
   ("壹", 1); ("贰", 2); ("叁", 3); ("肆", 4); ("伍", 5); ("陆", 6); ("柒", 7); ("捌", 8); ("玖", 9);
   ("两", 2); ("俩", 2); ("仨", 3)]%string%Z.
Definition zeros : list string := ["零"; "〇"]%string.
Definition ten_words : list string := ["十"; "拾"]%string.
Definition hundred_words : list string := ["百"; "佰"]%string.
Definition thousand_words : list string := ["千"; "仟"]%string.

Inductive one_unit : list string -> Z -> Prop := ou_unit w z : In (w, z) cn_units -> one_unit [w] z.
Inductive cn_tens : list string -> Z -> Prop :=
| ct_unit w z : In (w, z) cn_units -> cn_tens [w] z
| ct_ten t : In t ten_words -> cn_tens [t] 10
| ct_teen t w z : In t ten_words -> In (w, z) cn_units -> cn_tens [t; w] (10 + z)
| ct_tens w z t : In (w, z) cn_units -> In t ten_words -> cn_tens [w; t] (z * 10)
| ct_both w z t u k : In (w, z) cn_units -> In t ten_words -> In (u, k) cn_units -> cn_tens [w; t; u] (z * 10 + k).
(** A multiple of [s] with the word of [s], and what is left: directly if it is at least a
    tenth of [s], otherwise with a zero before it. *)
Section Scale.
  Variables P L : list string -> Z -> Prop.
  Variable words : list string.
  Variable s : Z.
  Inductive cn_scale : list string -> Z -> Prop :=
  | cs_up ws z : L ws z -> cn_scale ws z
  | cs_exact p a w : P p a -> In w words -> cn_scale (p ++ [w]) (a * s)
  | cs_next p a w q b : P p a -> In w words -> L q b -> (s <= 10 * b)%Z -> cn_scale (p ++ w :: q) (a * s + b)
  | cs_gap p a w o q b : P p a -> In w words -> In o zeros -> L q b -> (10 * b < s)%Z -> cn_scale (p ++ w :: o :: q) (a * s + b).
End Scale.
Definition cn_hundreds := cn_scale one_unit cn_tens hundred_words 100.
Definition cn_thousands := cn_scale one_unit cn_hundreds thousand_words 1000.
Definition cn_myriads := cn_scale cn_thousands cn_thousands ["万"%string] 10000.
Definition cn_numbers := cn_scale cn_myriads cn_myriads ["亿"%string] 100000000.
(** The words [ws] are a numeral of [z]. *)
Definition chinese (ws : list string) (z : Z) : Prop := (exists o, In o zeros /\ ws = [o] /\ z = 0%Z) \/ cn_numbers ws z.

(** The words of the rules that are one character *)
Definition cn_words : list string := map fst cn_units ++ zeros ++ ten_words ++ hundred_words ++ thousand_words ++ ["万"; "亿"; "点"]%string.
(** 万万 is one token, or two. *)
Definition double_token (tokenize : string -> res (list token)) : Prop :=
  exists ks, tokenize "万万"%string = Ret ks /\
    let ts := map tok_text (filter (fun k => negb (is_space_token k)) ks) in ts = ["万万"%string] \/ ts = ["万"; "万"]%string.

(** ** The rules of the file *)
Definition cn_level (p sc lo : string) (tenth : Z) : list rulebody :=
  [mkRb [nonterm p; nonterm sc] (call2 Times (part 1) (part 2));
   mkRb [nonterm p; nonterm sc; nonterm "cn_unit"]
     (call2 Plus product12 (Arg "func" (VFunc (FMR "nf.math.mul" [Arg "int" (VInt tenth); part 3]))));
   mkRb [nonterm p; nonterm sc; nonterm lo] (call2 Plus product12 (part 3));
   mkRb [nonterm p; nonterm sc; nonterm "cn_zero"; nonterm lo] (call2 Plus product12 (part 4));
   mkRb [nonterm lo] (call1 (part 1))].
Definition up (x : string) : rulebody := mkRb [nonterm x] (call1 (part 1)).
Definition all_worth (z : Z) (l : list string) : list rulebody := map number_body (map (fun w => (w, z)) l).
Definition chinese_rules : list (string * list rulebody) :=
  [("cn_unit", map number_body cn_units); ("cn_zero", all_worth 0 zeros);
   ("cn_digit", [up "cn_unit"; up "cn_zero"; up "digits"]);
   ("numbers", [up "cn_digit"; mkRb [nonterm "cn_digit"; nonterm "numbers"] (Some (FMR "nf.util.concat" [part 1; part 2]))]);
   ("cn_e1", all_worth 10 ten_words); ("cn_e2", all_worth 100 hundred_words); ("cn_e3", all_worth 1000 thousand_words);
   ("cn_e4", all_worth 10000 ["万"]); ("cn_e8", all_worth 100000000 ["亿"; "万万"]);
   ("cn_e1s", [up "cn_e1"; mkRb [nonterm "cn_e1"; nonterm "cn_unit"] (call2 Plus (part 1) (part 2));
               mkRb [nonterm "cn_unit"; nonterm "cn_e1"] (call2 Times (part 1) (part 2));
               mkRb [nonterm "cn_unit"; nonterm "cn_e1"; nonterm "cn_unit"] (call2 Plus product12 (part 3));
               up "cn_unit"; up "cn_zero"]);
   ("cn_e2s", cn_level "cn_unit" "cn_e2" "cn_e1s" 10); ("cn_e3s", cn_level "cn_unit" "cn_e3" "cn_e2s" 100);
   ("cn_e4s", cn_level "cn_e3s" "cn_e4" "cn_e3s" 1000); ("cn_e8s", cn_level "cn_e4s" "cn_e8" "cn_e4s" 10000000);
   ("cn_decimal", [mkRb [word "点"; nonterm "numbers"] (Some (FMR "nf.math.decimal" [part 2]))]);
   ("number", [up "cn_e8s"; up "cn_decimal"; mkRb [nonterm "cn_e8s"; nonterm "cn_decimal"] (call2 Plus (part 1) (part 2))]);
   ("number", [up "cn_e2"; up "cn_e3"; up "cn_e4"; up "cn_e8"])]%string.
Definition chinese_names : list string := map fst chinese_rules.
Definition chinese_items : list item := map (fun r => mkItem false (fst r) (snd r)) chinese_rules.
