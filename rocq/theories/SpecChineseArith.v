(** Arithmetic in Chinese words: numerals with 加, 减 and 乘 between them,
    and the rest of examples/math/grammars/math.zh.grammar. *)
From Verif Require Import Base ModelTypes ModelText ModelEarley ModelTrees ModelApi ModelReader ModelGrammar ModelLocal
  SpecTypes SpecGrammar SpecTree SpecNotation SpecRefine SpecConstruct SpecLocal SpecMeaning ModelShipped SpecShipped SpecNames SpecArith SpecWorth SpecChinese SpecWordArith.
Local Open Scope list_scope.

(** examples/math/grammars/math.zh.grammar 12, 17, 25 *)
Definition cn_operators : list (string * operation) := [("加", Plus); ("减", Minus); ("乘", Times)]%string.
(** The words are those of the number [n], and of further operations and numbers. *)
Inductive cn_chain : list string -> Z -> list (operation * Z) -> Prop :=
| cc_one ws n : chinese ws n -> cn_chain ws n []
| cc_more ws n w o ws' m rest : chinese ws n -> In (w, o) cn_operators -> cn_chain ws' m rest -> cn_chain (ws ++ w :: ws') n ((o, m) :: rest).
(** The other terminal texts of the rules <number> and <fraction> (math.zh.grammar 10-43) *)
Definition cn_others : list string :=
  ["打"; "加上"; "与"; "的和"; "减去"; "的差"; "分之"; "乘以"; "的积"; "的"; "倍"; "的一半"; "除"; "除以"; "次方"; "次幂"; "的平方"; "的立方"; "的平方根"; "的立方根"]%string.
Definition cn_sum_words : list string := cn_words ++ map fst cn_operators.
Definition cn_sum_names : list string := "fraction"%string :: "numeric"%string :: chinese_names.
(** [v] is a terminal text of a file. *)
Definition text_in (e : env) (T v : string) : Prop := exists x b t, alternative_in e T x b /\ In t (rb_terms b) /\ t_type t = TTerminal /\ t_value t = v.
(** No name that the reader may make up for a text of one file is one for a text of the other. *)
Definition names_between (e : env) (T T' : string) : Prop :=
  forall v v' ks ks' j j', text_in e T v -> text_in e T' v' -> e_tokenize e v = Ret ks -> e_tokenize e v' = Ret ks' ->
    numbered (usual_name (e_ascii e) ks) j <> numbered (usual_name (e_ascii e) ks') j'.
