(** A grammar text and a document for the properties of whole calls. *)
From Coq Require Import Permutation Ascii.
From Verif Require Import Base ModelTypes ModelText ModelEarley ModelTrees ModelApi ModelReader ModelGrammar ModelLocal
  ModelMatch SpecTypes SpecGrammar SpecTree SpecRefine SpecConstruct SpecApi SpecLocal SpecEnd ProofRefine ProofConstruct
  ProofConstructRefute ProofLocal ProofLocalMatch ProofLocalApi ProofRefute ProofEnd Examples ExamplesSem ExamplesLocal ExamplesGrammar.

(** "x y z,x y q", where a tagger calls q a <b> *)
Definition end_doc : document :=
  mkDoc "x y z,x y q"
    [ltok 0 "x" KWord 0; ltok 1 " " KSpace 1; ltok 2 "y" KWord 2; ltok 3 " " KSpace 3; ltok 4 "z" KWord 4; ltok 5 "," KPunct 5;
     ltok 6 "x" KWord 6; ltok 7 " " KSpace 7; ltok 8 "y" KWord 8; ltok 9 " " KSpace 9; ltok 10 "q" KWord 10]
    [mkSpan 10 11 (Some [("b", EOther)]) "q"]%string.
Definition end_annotate (ctx text : string) : res document := if String.eqb text "x y z,x y q" then Ret end_doc else Err.
Definition end_local (regexps : list (string * string)) :=
  doc_local ExamplesGrammar.xhash xfind xspan_text regexps xorde end_annotate "" "x y z,x y q".

Lemma small_usable T after : compatible [mkRefined T small_rules after] ->
  usable xtokenize [mkRefined T small_rules after] ["a"%string].
Proof.
  intros HC. cbn [map rd_before]. unfold usable. cbn [map rd_before].
  split; [exact HC|]. split.
  { intros t t' Ho Ho' Et Et' Ev. apply small_occurs in Ho. apply small_occurs in Ho'.
    destruct Ho as [-> | [-> | ->]]; destruct Ho' as [-> | [-> | ->]]; try discriminate; reflexivity. }
  split. { intros t Ho Et Hp. apply small_occurs in Ho. destruct Ho as [-> | [-> | ->]]; discriminate. }
  split. { intros t Ho Et. apply small_occurs in Ho. destruct Ho as [-> | [-> | ->]]; discriminate. }
  split. { intros t t' Ho Ho' _ Et. apply small_occurs in Ho. destruct Ho as [-> | [-> | ->]]; destruct Et as [Et|(Et & _)]; discriminate. }
  split.
  { split.
    - intros t ks Ho Et Ek. apply small_occurs in Ho. destruct Ho as [-> | [-> | ->]]; try discriminate.
      + exists (xword 0 "x"). split; [|discriminate]. vm_compute in Ek. injection Ek as <-. left. reflexivity.
      + exists (xword 0 "z"). split; [|discriminate]. vm_compute in Ek. injection Ek as <-. left. reflexivity.
    - intros t Ho Et. apply small_occurs in Ho. destruct Ho as [-> | [-> | ->]]; destruct Et; discriminate. }
  split; [discriminate|]. intros S [<-|[]]. split; [discriminate|]. right. reflexivity.
Qed.

Lemma end_fit : fit_document ExamplesGrammar.xhash xfind [] end_doc.
Proof.
  assert (Hok : doc_ok end_doc) by (apply doc_ok_b_ok; vm_compute; reflexivity).
  split; [discriminate|]. split; [exact Hok|]. split; [apply spans_ok_b_ok; vm_compute; reflexivity|].
  split. { intros sp m x items [<-|[]] E Hi. cbn in E. injection E as <-. destruct Hi as [Hi|[]]; discriminate. }
  split.
  { split.
    - intros sp m x en [<-|[]] E Hi. cbn. discriminate.
    - intros x s en (pat & ms & a & b & k & l & [] & _). }
  split. { apply (separates_ok ExamplesGrammar.xhash xfind xspan_text [] xorde end_doc xorde_ok Hok). vm_compute. reflexivity. }
  intros x b Hb. inversion Hb as [k y Hk Hc|sp m y Hs Hv Hi|sp m y items Hs Hv Hi|y s en Hr]; subst.
  - inversion Hc; subst; reflexivity.
  - destruct Hs as [<-|[]]. cbn in Hv. injection Hv as <-. destruct Hi as [Hi|[]]. injection Hi as <-. reflexivity.
  - destruct Hs as [<-|[]]. cbn in Hv. injection Hv as <-. destruct Hi as [Hi|[]]. discriminate.
  - destruct Hr as (pat & ms & a & b & k & l & [] & _).
Qed.

(** the parses of a call on this document *)
Definition end_seen (r : res (option grammar * world)) :=
  match r with
  | Ret (Some g, w) =>
      match EarleyParseAll (terminal_match (lookup (w_tokens w)) (fun s => s)) (fun _ => id_ord) (all_rules g) (doc_tokens end_annotate)
              (end_local (g_regexps g)) 200 "" "x y z,x y q" ["a"%string] with
      | Ret ps => Some (map (fun p => (length (p_columns p), finals_of p (p_finals p))) ps)
      | _ => None
      end
  | _ => None
  end.
