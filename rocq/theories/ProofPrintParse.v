(** Printing the charts and trees of a parse. *)
From Coq Require Import Ascii.
From Verif Require Import Base ModelTypes ModelText ModelQuote ModelEarley ModelTrees ModelApi ModelString ModelPrint
     SpecTypes SpecGrammar SpecTree SpecApi SpecSem SpecPrint ProofChart ProofSound ProofApi ProofNodes ProofQuote ProofPrint.

Section Nodes.
  Variable cols : list column.
  Variable P : tstate -> Prop.
  Hypothesis Hchart : forall c col s, nth_error cols c = Some col -> In s (c_states col) -> P s.
  Hypothesis Hlist : forall s, P s -> P (with_list_rb s).
  Hypothesis Hany : forall s, t_type (s_term s) = TAny -> P s.
  Hypothesis Htok : forall s, t_type (s_term s) = TTerminal -> P s.
  Definition all_parts (t : node) : Prop := forall m, part_of t m -> P (n_value m).

  Lemma parts_node v l : P v -> Forall all_parts l -> all_parts (Node v l).
  Proof.
    intros Hv Hl m Hm. inversion Hm as [|? ? k ? Hk Hm']; subst; [exact Hv|].
    rewrite Forall_forall in Hl. exact (Hl k Hk m Hm').
  Qed.

  Lemma helper_parts fuel : (forall f, f <= fuel -> forall ref outs, build_trees cols f ref = Ret outs -> Forall all_parts outs) ->
    forall f children ref st terms k e outs, f <= fuel -> P st -> Forall all_parts children ->
    build_helper cols f children ref st terms k e = Ret outs -> Forall all_parts outs.
  Proof using Htok.
    intros Hb. induction f as [|f IH]; intros children ref st terms k e outs Hf Hst Hch H; [discriminate|].
    simpl in H. destruct k as [|k].
    - injection H as <-. constructor; [|constructor]. apply parts_node; auto.
    - destruct (idx terms k) as [t| | |] eqn:Et; try discriminate. cbn [bind] in H.
      assert (forall x, (if Z.ltb e 0 then Panic else x) = Ret outs -> x = Ret outs) as Hz.
      { intros x. destruct (Z.ltb e 0); [discriminate|auto]. }
      assert (forall o, In o outs -> (col <- idx cols (Z.to_nat e) ;;
                over_states
                  (fun r sub_st =>
                     subs <- build_trees cols f (Z.to_nat e, r) ;;
                     over_subtrees
                       (fun sub => build_helper cols f (sub :: children) ref st terms k
                                                (Z.of_nat (s_start sub_st))) subs)
                  ref t (if Nat.eqb k 0 then Some (s_start st) else None) (Z.to_nat e) 0 (c_states col)) = Ret outs -> all_parts o) as Hgen.
      { intros o Hin Ho. destruct (idx cols (Z.to_nat e)) as [col| | |]; try discriminate. cbn [bind] in Ho.
        destruct (over_states_inv _ _ _ _ _ _ _ _ _ Ho Hin) as (r & d & os & Hos & Ho').
        destruct (build_trees cols f (Z.to_nat e, r)) as [subs| | |] eqn:Es; try discriminate. cbn [bind] in Hos.
        destruct (over_subtrees_inv _ _ _ _ Hos Ho') as (sub & os' & H1 & H2 & H3).
        assert (Forall all_parts os') as F.
        { eapply IH; [| |constructor; [|exact Hch]|exact H2]; auto; [lia|].
          specialize (Hb f ltac:(lia) _ _ Es). rewrite Forall_forall in Hb. auto. }
        rewrite Forall_forall in F. auto. }
      destruct (t_type t) eqn:Ety; try (apply Forall_forall; intros o Hin; apply Hgen; auto; fail).
      eapply IH; [| |constructor; [|exact Hch]|exact H]; auto; [lia|].
      apply parts_node; [apply Htok; exact Ety|constructor].
  Qed.

  Lemma tree_parts fuel : forall f, f <= fuel -> forall ref outs, build_trees cols f ref = Ret outs -> Forall all_parts outs.
  Proof using Hchart Hlist Hany Htok.
    induction fuel as [|fuel IH]; intros f Hf ref outs H; [destruct f; [discriminate|lia]|].
    destruct f as [|f]; [discriminate|]. simpl in H.
    destruct (idx cols (fst ref)) as [col| | |] eqn:Ec; try discriminate. cbn [bind] in H.
    destruct (idx (c_states col) (snd ref)) as [st| | |] eqn:Es; try discriminate. cbn [bind] in H.
    assert (P st) as Hp.
    { unfold idx in Ec, Es. destruct (nth_error cols (fst ref)) as [col'|] eqn:E1; [|discriminate]. injection Ec as <-.
      destruct (nth_error (c_states col') (snd ref)) as [st'|] eqn:E2; [|discriminate]. injection Es as <-.
      eapply Hchart; [exact E1|eapply nth_error_In; exact E2]. }
    assert (forall x, (match s_rb (with_list_rb st) with None => Panic
              | Some rb => build_helper cols f [] ref (with_list_rb st) (rb_terms rb) (length (rb_terms rb)) (Z.of_nat (s_end (with_list_rb st))) end) = Ret x ->
              Forall all_parts x) as Hb.
    { intros x Hx. destruct (s_rb (with_list_rb st)) as [rb|]; [|discriminate].
      eapply (helper_parts f); [|reflexivity|apply Hlist; exact Hp|constructor|exact Hx].
      intros f' Hf'. apply IH. lia. }
    destruct (t_type (s_term st)) eqn:Et; try (apply Hb; exact H).
    injection H as <-. constructor; [|constructor]. apply parts_node; [|constructor]. apply Hany. exact Et.
  Qed.
End Nodes.

Section Parse.
  Variables (is_print_hi : rune -> bool) (float_string : bigf -> string) (stop : ascii).
  Notation pstate := (plain_state is_print_hi float_string stop).
  Variables (tmatch : term -> option token -> bool) (ords : nat -> order) (gs : list grammar_rules) (text : string)
    (fuel n : nat) (mf : bool) (toks : list token) (starts : list string) (p : parse_t).
  Hypothesis Ho : is_order (ords n).
  Hypothesis Hparse : earley_parse_n tmatch ords gs text fuel n mf toks starts = Ret p.
  Let Hres : parse_result tmatch (ords n) gs text toks starts mf p :=
    proj2 (proj2 (earley_parse_result _ _ _ _ _ _ _ _ _ _ Ho Hparse)).

  Lemma parse_structured : structured toks (p_columns p).
  Proof. destruct Hres as (_ & ((H & _) & _) & _). exact H. Qed.

  Hypothesis Hwf : well_formed gs starts.
  Hypothesis Hplain : plain_grammar is_print_hi float_string stop gs starts.
  Hypothesis Hstop : lacks stop "nf.I($1)".

  Lemma chart_plain c col s : nth_error (p_columns p) c = Some col -> In s (c_states col) -> pstate s.
  Proof using Ho Hparse Hwf Hplain Hstop.
    intros Hc Hs. apply In_nth_error in Hs as [r Hr].
    assert (st_at (p_columns p) c r = Some s) as Hat by (unfold st_at, states_of; rewrite Hc; exact Hr).
    destruct Hres as (_ & ((_ & HJ & _) & _) & _). pose proof (justified_origin _ _ _ _ _ HJ c r s Hat) as Hor.
    destruct Hplain as [Hpb Hps]. rewrite Forall_forall in Hps. destruct Hwf as [Hnamed _].
    assert (forall t, occurs gs t -> plain_term t) as Hocc.
    { intros t (x & b & Hb & Hin). destruct (Hpb x b Hb) as [_ [Hb' _]]. rewrite Forall_forall in Hb'. auto. }
    unfold origin in Hor. unfold plain_state. destruct (t_type (s_term s)) eqn:Et; try contradiction; try exact I.
    - destruct Hor as (b & Eb & [(S & HS & Ex & _ & ->)|(g & x & ru & h & Hg & Hl & Hb & Ex & _)] & Hd & _).
      + rewrite Ex. split; [intros [X|[X|[]]]; discriminate|]. exists (gamma_body S). split; [exact Eb|]. split; [|exact Hd].
        split; [|exact Hstop]. constructor; [|constructor]. exact (Hps S HS).
      + rewrite (Hnamed _ _ _ Hg Hl) in Ex. rewrite Ex. assert (has_body gs x b) as Hh by (exists g, ru, h; auto).
        destruct (Hpb x b Hh) as [H1 H2]. split; [exact H1|]. exists b. auto.
    - destruct Hor as [_ Hor]. apply Hocc in Hor. unfold plain_term in Hor. rewrite Et in Hor. exact Hor.
  Qed.

  Lemma returned_plain t : tree_of_parse p t -> plain_tree is_print_hi float_string stop t.
  Proof using Ho Hparse Hwf Hplain Hstop.
    intros (ref & f & outs & _ & Hg & Hin).
    assert (Forall (all_parts pstate) outs) as F.
    { eapply (tree_parts (p_columns p) pstate chart_plain) with (fuel := f) (f := f) (ref := ref); auto.
      - intros s Hs. unfold with_list_rb. destruct (t_type (s_term s)) eqn:Et; auto. unfold plain_state in *. cbn [s_term]. rewrite Et in *. exact Hs.
      - intros s Et. unfold plain_state. rewrite Et. exact I.
      - intros s Et. unfold plain_state. rewrite Et. exact I. }
    rewrite Forall_forall in F. exact (F t Hin).
  Qed.
End Parse.

(** ** Two parses *)
Lemma nl_stop : lacks (of_byte 10) "nf.I($1)".
Proof. intros H. vm_compute in H. repeat (destruct H as [H|H]; [discriminate|]). exact H. Qed.
Lemma brace_stop : lacks "}" "nf.I($1)".
Proof. intros H. vm_compute in H. repeat (destruct H as [H|H]; [discriminate|]). exact H. Qed.

Lemma trees_printed : forall is_print_hi float_string
  tmatch ords gs text fuel n mf toks starts p tmatch' ords' gs' text' fuel' n' mf' toks' starts' p',
  is_order (ords n) -> earley_parse_n tmatch ords gs text fuel n mf toks starts = Ret p ->
  well_formed gs starts -> plain_grammar is_print_hi float_string (of_byte 10) gs starts ->
  is_order (ords' n') -> earley_parse_n tmatch' ords' gs' text' fuel' n' mf' toks' starts' = Ret p' ->
  well_formed gs' starts' -> plain_grammar is_print_hi float_string (of_byte 10) gs' starts' ->
  forall t u, tree_of_parse p t -> tree_of_parse p' u ->
  (print_node is_print_hi float_string t = print_node is_print_hi float_string u
   <-> tree_alike is_print_hi float_string t u).
Proof.
  intros pr fs tm ords gs text fuel n mf toks starts p tm' ords' gs' text' fuel' n' mf' toks' starts' p' H1 H2 H3 H4 H5 H6 H7 H8 t u Ht Hu.
  apply print_faithful.
  - exact (returned_plain pr fs _ _ _ _ _ _ _ _ _ _ _ H1 H2 H3 H4 nl_stop t Ht).
  - exact (returned_plain pr fs _ _ _ _ _ _ _ _ _ _ _ H5 H6 H7 H8 nl_stop u Hu).
Qed.

Lemma trees_string : forall is_print_hi float_string
  tmatch ords gs text fuel n mf toks starts p tmatch' ords' gs' text' fuel' n' mf' toks' starts' p',
  is_order (ords n) -> earley_parse_n tmatch ords gs text fuel n mf toks starts = Ret p ->
  well_formed gs starts -> plain_grammar is_print_hi float_string "}" gs starts ->
  is_order (ords' n') -> earley_parse_n tmatch' ords' gs' text' fuel' n' mf' toks' starts' = Ret p' ->
  well_formed gs' starts' -> plain_grammar is_print_hi float_string "}" gs' starts' ->
  forall t u, tree_of_parse p t -> tree_of_parse p' u ->
  (node_string is_print_hi float_string t = node_string is_print_hi float_string u
   <-> tree_alike is_print_hi float_string t u).
Proof.
  intros pr fs tm ords gs text fuel n mf toks starts p tm' ords' gs' text' fuel' n' mf' toks' starts' p' H1 H2 H3 H4 H5 H6 H7 H8 t u Ht Hu.
  apply string_faithful.
  - exact (returned_plain pr fs _ _ _ _ _ _ _ _ _ _ _ H1 H2 H3 H4 brace_stop t Ht).
  - exact (returned_plain pr fs _ _ _ _ _ _ _ _ _ _ _ H5 H6 H7 H8 brace_stop u Hu).
Qed.

Lemma print_is_walk is_print_hi float_string t : print_node is_print_hi float_string t
  = String.concat "" (map (fun e => rep (fst e) "  " ++ state_string is_print_hi float_string (snd e) ++ newline)%string (walk 0 t)).
Proof. exact (print_lines is_print_hi float_string (tsize t) t 0 (le_n _)). Qed.

Lemma chart_string : forall is_print_hi float_string tmatch ords gs text fuel n mf toks starts p,
  is_order (ords n) -> earley_parse_n tmatch ords gs text fuel n mf toks starts = Ret p ->
  exists out, parse_string is_print_hi float_string p = Ret out.
Proof.
  intros pr fs tm ords gs text fuel n mf toks starts p Ho Hp.
  pose proof (parse_structured tm ords gs text fuel n mf toks starts p Ho Hp) as [Hl Hst].
  apply columns_total. intros c Hc. apply In_nth_error in Hc as [i Hi].
  assert (i < length (p_columns p)) as Hlt by (apply nth_error_Some; congruence).
  destruct (Hst i c Hi) as [-> ->]. destruct i as [|i]; [left; reflexivity|]. right. cbn [col_tok].
  intros E. apply nth_error_None in E. lia.
Qed.

Lemma charts_printed : forall is_print_hi float_string
  tmatch ords gs text fuel n mf toks starts p tmatch' ords' gs' text' fuel' n' mf' starts' p',
  is_order (ords n) -> earley_parse_n tmatch ords gs text fuel n mf toks starts = Ret p ->
  well_formed gs starts -> plain_grammar is_print_hi float_string (of_byte 10) gs starts ->
  is_order (ords' n') -> earley_parse_n tmatch' ords' gs' text' fuel' n' mf' toks starts' = Ret p' ->
  well_formed gs' starts' -> plain_grammar is_print_hi float_string (of_byte 10) gs' starts' ->
  (parse_string is_print_hi float_string p = parse_string is_print_hi float_string p'
   <-> Forall2 (fun c d => Forall2 (alike is_print_hi float_string) (c_states c) (c_states d)) (p_columns p) (p_columns p')).
Proof.
  intros pr fs tm ords gs text fuel n mf toks starts p tm' ords' gs' text' fuel' n' mf' starts' p' Ho Hp Hwf Hpl Ho' Hp' Hwf' Hpl'.
  destruct (chart_string pr fs _ _ _ _ _ _ _ _ _ _ Ho Hp) as [x Hx].
  pose proof (parse_structured tm ords gs text fuel n mf toks starts p Ho Hp) as [Hl Hst].
  pose proof (parse_structured tm' ords' gs' text' fuel' n' mf' toks starts' p' Ho' Hp') as [Hl' Hst'].
  assert (Forall2 (fun c d => c_index c = c_index d /\ c_token c = c_token d) (p_columns p) (p_columns p')) as F.
  { assert (forall i c d, nth_error (p_columns p) i = Some c -> nth_error (p_columns p') i = Some d ->
              c_index c = c_index d /\ c_token c = c_token d) as Hpt.
    { intros i c d Hc Hd. destruct (Hst _ _ Hc) as [-> ->]. destruct (Hst' _ _ Hd) as [-> ->]. auto. }
    revert Hpt. assert (length (p_columns p) = length (p_columns p')) as El by congruence. revert El. clear.
    generalize (p_columns p'). induction (p_columns p) as [|c l IH]; intros [|d m] El Hpt; try discriminate; constructor.
    - exact (Hpt 0 c d eq_refl eq_refl).
    - apply IH; [simpl in El; lia|]. intros i. exact (Hpt (S i)). }
  unfold parse_string in *. split.
  - intros E. rewrite Hx in E. symmetry in E. eapply columns_inj; eauto.
    + apply Forall_forall. intros c Hc. apply In_nth_error in Hc as [i Hi]. apply Forall_forall. intros s Hs.
      exact (chart_plain pr fs _ tm ords gs text fuel n mf toks starts p Ho Hp Hwf Hpl nl_stop i c s Hi Hs).
    + apply Forall_forall. intros c Hc. apply In_nth_error in Hc as [i Hi]. apply Forall_forall. intros s Hs.
      exact (chart_plain pr fs _ tm' ords' gs' text' fuel' n' mf' toks starts' p' Ho' Hp' Hwf' Hpl' nl_stop i c s Hi Hs).
  - intros G. apply columns_same; assumption.
Qed.

(** The root and its children are what TreePrint shows. *)
Lemma tree_print_shows : forall treeprint : string -> list string -> string, (forall a l b m, treeprint a l = treeprint b m -> a = b /\ l = m) ->
  forall is_print_hi float_string
  tmatch ords gs text fuel n mf toks starts p tmatch' ords' gs' text' fuel' n' mf' toks' starts' p',
  is_order (ords n) -> earley_parse_n tmatch ords gs text fuel n mf toks starts = Ret p ->
  well_formed gs starts -> plain_grammar is_print_hi float_string (of_byte 10) gs starts ->
  is_order (ords' n') -> earley_parse_n tmatch' ords' gs' text' fuel' n' mf' toks' starts' = Ret p' ->
  well_formed gs' starts' -> plain_grammar is_print_hi float_string (of_byte 10) gs' starts' ->
  forall t u, tree_of_parse p t -> tree_of_parse p' u ->
  (tree_print is_print_hi float_string treeprint t = tree_print is_print_hi float_string treeprint u
   <-> alike is_print_hi float_string (n_value t) (n_value u)
       /\ Forall2 (fun c d => alike is_print_hi float_string (n_value c) (n_value d)) (n_children t) (n_children u)).
Proof.
  intros treeprint Hinj pr fs tm ords gs text fuel n mf toks starts p tm' ords' gs' text' fuel' n' mf' toks' starts' p' H1 H2 H3 H4 H5 H6 H7 H8 t u Ht Hu.
  pose proof (returned_plain pr fs _ _ _ _ _ _ _ _ _ _ _ H1 H2 H3 H4 nl_stop t Ht) as Pt.
  pose proof (returned_plain pr fs _ _ _ _ _ _ _ _ _ _ _ H5 H6 H7 H8 nl_stop u Hu) as Pu.
  assert (A : forall s v, plain_state pr fs (of_byte 10) s -> plain_state pr fs (of_byte 10) v -> state_string pr fs s = state_string pr fs v -> alike pr fs s v).
  { intros s v Hs Hv E. apply (line_inj pr fs "" "" s v Hs Hv). rewrite E. reflexivity. }
  assert (C : forall s v, alike pr fs s v -> state_string pr fs s = state_string pr fs v) by (intros; apply state_same; assumption).
  destruct t as [v l], u as [w m]. unfold tree_print. cbn [n_value n_children].
  assert (Pl : Forall (fun c => plain_state pr fs (of_byte 10) (n_value c)) l).
  { pose proof (plain_kids pr fs _ v l Pt) as K. eapply Forall_impl; [|exact K]. intros [a b] Ka. exact (plain_root pr fs _ a b Ka). }
  assert (Pm : Forall (fun c => plain_state pr fs (of_byte 10) (n_value c)) m).
  { pose proof (plain_kids pr fs _ w m Pu) as K. eapply Forall_impl; [|exact K]. intros [a b] Ka. exact (plain_root pr fs _ a b Ka). }
  apply plain_root in Pt. apply plain_root in Pu. split.
  - intros E.
    assert (S : forall a b : string, (a ++ newline = b ++ newline)%string -> a = b).
    { clear. induction a as [|c a IH]; intros [|d b] E; cbn in E; try reflexivity.
      - injection E as _ E. destruct b; discriminate.
      - injection E as _ E. destruct a; discriminate.
      - injection E as -> E. f_equal. apply IH. exact E. }
    apply S in E. apply Hinj in E as [E1 E2]. split; [apply A; assumption|].
    clear - A E2 Pl Pm. revert m Pm E2. induction Pl as [|c l Hc _ IH]; intros m Pm E2; destruct Pm as [|d m Hd Pm]; try discriminate; constructor.
    + cbn [map] in E2. injection E2 as E _. apply A; assumption.
    + apply IH; [exact Pm|]. cbn [map] in E2. injection E2 as _ E. exact E.
  - intros [E1 E2]. rewrite (C _ _ E1). f_equal. f_equal. clear - C E2. induction E2 as [|c d l m H _ IH]; [reflexivity|]. cbn [map]. rewrite (C _ _ H), IH. reflexivity.
Qed.
