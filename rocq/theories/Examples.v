(** Small concrete grammars used by the examples and by the refutations, and
    boolean tests for the hypotheses of the theorems. *)
From Coq Require Import Permutation.
From Verif Require Import Base ModelTypes ModelText ModelEarley ModelTrees ModelApi
     SpecTypes SpecGrammar SpecTree SpecApi.

Definition xT (v : string) : term := mkTerm v TTerminal MNil.
Definition xN (v : string) : term := mkTerm v TNonterminal MNil.
Definition xA (lo hi : Z) : term := mkTerm "any" TAny (MMap (Some lo) (Some hi)).
Definition xL (v : string) (lo hi : Z) : term := mkTerm v TList (MMap (Some lo) (Some hi)).
Definition xA1 : term := mkTerm "any" TAny (MMap None None).
Definition xL1 (v : string) : term := mkTerm v TList (MMap None None).

Definition xbody (ts : list term) : rulebody := mkRb ts None.
Fixpoint xnumber (n : N) (l : list rulebody) : list (N * rulebody) :=
  match l with [] => [] | b :: l' => (n, b) :: xnumber (N.succ n) l' end.
Definition xrule (x : string) (bs : list (list term)) : string * rule :=
  (x, mkRule x (xnumber 0 (map xbody bs))).

(** tokens one byte apart: token number i occupies the bytes 2i and 2i+1 *)
Definition xtok (i : nat) (s : string) : token :=
  mkTok s KWord (2 * i) (2 * i + String.length s) i "" "" s.
Fixpoint xtoks_from (i : nat) (l : list string) : list token :=
  match l with [] => [] | s :: l' => xtok i s :: xtoks_from (S i) l' end.
Definition xtoks (l : list string) : list token := xtoks_from 0 l.

(** equality of texts *)
Definition xmatch (t : term) (k : option token) : bool :=
  match k with Some k => String.eqb (t_value t) (tok_text k) | None => false end.

(** two map orders *)
Definition id_ord : order := fun _ _ _ l => l.
Definition rev_ord : order := fun _ _ _ l => rev l.

Lemma id_ord_ok : is_order id_ord.
Proof. intros i j k l. apply Permutation_refl. Qed.
Lemma rev_ord_ok : is_order rev_ord.
Proof. intros i j k l. apply Permutation_sym, Permutation_rev. Qed.

(** ** Tests for the hypotheses *)
Definition all_bodies (gs : list grammar_rules) : list rulebody :=
  flat_map (fun g : grammar_rules => flat_map (fun p => map snd (r_body (snd p))) g) gs.

Lemma lookup_in {A} (m : list (string * A)) k a : lookup m k = Some a -> In (k, a) m.
Proof.
  induction m as [|[k' a'] m IH]; simpl; [discriminate|].
  destruct (String.eqb_spec k' k) as [->|_]; intros H; [injection H as ->|]; auto.
Qed.

Lemma has_body_in gs x b : has_body gs x b -> In b (all_bodies gs).
Proof.
  intros (g & r & h & Hg & Hl & Hb). unfold all_bodies. apply in_flat_map. exists g. split; [exact Hg|].
  apply in_flat_map. exists (x, r). split; [apply lookup_in; exact Hl|].
  simpl. apply in_map_iff. exists (h, b). auto.
Qed.

Definition all_terms (gs : list grammar_rules) : list term := flat_map rb_terms (all_bodies gs).

Lemma occurs_in gs t : occurs gs t -> In t (all_terms gs).
Proof.
  intros (x & b & Hb & Ht). apply in_flat_map. exists b. split; [eapply has_body_in; eauto|exact Ht].
Qed.

Definition named_b (gs : list grammar_rules) : bool :=
  forallb (fun g : grammar_rules => forallb (fun p => String.eqb (r_name (snd p)) (fst p)) g) gs.
Lemma named_b_ok gs : named_b gs = true -> named_rules gs.
Proof.
  intros H g x r Hg Hl. unfold named_b in H. rewrite forallb_forall in H.
  specialize (H g Hg). rewrite forallb_forall in H. specialize (H _ (lookup_in _ _ _ Hl)).
  apply String.eqb_eq in H. exact H.
Qed.

Definition unreserved_b (gs : list grammar_rules) (starts : list string) : bool :=
  forallb (fun t => ttype_eqb (t_type t) TTerminal || negb (String.eqb (t_value t) GammaRule)) (all_terms gs)
  && forallb (fun s => negb (String.eqb s GammaRule)) starts.
Lemma unreserved_b_ok gs starts : unreserved_b gs starts = true -> no_reserved gs starts.
Proof.
  unfold unreserved_b. intros H. apply andb_prop in H. destruct H as [H1 H2].
  rewrite forallb_forall in H1, H2. split.
  - intros t Ht Hty He. specialize (H1 t (occurs_in _ _ Ht)). rewrite He, String.eqb_refl in H1.
    destruct (t_type t); simpl in H1; try discriminate. congruence.
  - intros Hin. specialize (H2 _ Hin). rewrite String.eqb_refl in H2. discriminate.
Qed.

Lemma well_formed_b_ok gs starts :
  named_b gs && unreserved_b gs starts = true -> well_formed gs starts.
Proof.
  intros H. apply andb_prop in H. destruct H. split; [apply named_b_ok|apply unreserved_b_ok]; assumption.
Qed.

Definition nofunc_b (gs : list grammar_rules) : bool :=
  forallb (fun b => match rb_f b with None => true | Some _ => false end) (all_bodies gs).
Lemma nofunc_b_ok gs : nofunc_b gs = true -> typed_args gs.
Proof.
  intros H x b Hb f Hf. unfold nofunc_b in H. rewrite forallb_forall in H.
  specialize (H b (has_body_in _ _ _ Hb)). rewrite Hf in H. discriminate.
Qed.

Definition meta_eqb (m m' : meta) : bool := meta_equal m m'.
Definition special_b (t : term) : bool := match t_type t with TAny | TList => true | _ => false end.

Definition uniform_b (gs : list grammar_rules) : bool :=
  forallb (fun t => forallb (fun t' =>
    negb (special_b t && ttype_eqb (t_type t) (t_type t')
          && (ttype_eqb (t_type t) TAny || String.eqb (t_value t) (t_value t')))
    || meta_equal (t_meta t) (t_meta t')) (all_terms gs)) (all_terms gs).

Lemma meta_equal_true m m' : meta_equal m m' = true -> m = m'.
Proof.
  destruct m as [|s|lo hi], m' as [|s'|lo' hi']; simpl; try discriminate; try reflexivity.
  - intros H. apply String.eqb_eq in H. congruence.
  - intros H. apply andb_prop in H. destruct H as [H1 H]. apply andb_prop in H. destruct H as [H2 H3].
    apply Nat.eqb_eq in H1. unfold map_len in H1.
    destruct lo, lo', hi, hi'; simpl in *; try discriminate; try lia;
      try apply Z.eqb_eq in H2; try apply Z.eqb_eq in H3; congruence.
Qed.

Lemma uniform_b_ok gs : uniform_b gs = true -> uniform_ranges gs.
Proof.
  intros H t t' Ht Ht' Hty Hk. unfold uniform_b in H. rewrite forallb_forall in H.
  specialize (H t (occurs_in _ _ Ht)). rewrite forallb_forall in H.
  specialize (H t' (occurs_in _ _ Ht')). apply orb_prop in H. destruct H as [H|H].
  - exfalso. apply negb_true_iff in H. unfold special_b in H. rewrite <- Hty in H.
    destruct Hk as [Hk|[Hk Hv]]; rewrite Hk in H; simpl in H; [discriminate|].
    rewrite Hv, String.eqb_refl in H. discriminate.
  - apply meta_equal_true. exact H.
Qed.

Definition count0_b (m : meta) : bool :=
  match m with
  | MNil | MMap None None | MStr _ => false
  | MMap lo hi => Z.leb (mget lo) 0 && Z.leb 0 (mget hi)
  end.
Definition noempty_b (gs : list grammar_rules) : bool :=
  forallb (fun b => match rb_terms b with [] => false | _ => true end) (all_bodies gs)
  && forallb (fun t => negb (special_b t) || negb (count0_b (t_meta t))) (all_terms gs).
Lemma noempty_b_ok gs : noempty_b gs = true -> no_empty gs.
Proof.
  unfold noempty_b. intros H. apply andb_prop in H. destruct H as [H1 H2].
  rewrite forallb_forall in H1, H2. split.
  - intros x b Hb He. specialize (H1 b (has_body_in _ _ _ Hb)). rewrite He in H1. discriminate.
  - intros t Ht Hk Hr. specialize (H2 t (occurs_in _ _ Ht)). apply orb_prop in H2.
    unfold special_b in H2. destruct H2 as [H2|H2].
    + destruct Hk as [Hk|Hk]; rewrite Hk in H2; discriminate.
    + destruct (t_meta t) as [|s|lo hi]; cbn [range_allows count0_b] in *; try lia; try contradiction.
      destruct lo, hi; cbn [mget] in *; try lia;
      apply negb_true_iff, andb_false_iff in H2; destruct H2 as [H2|H2]; apply Z.leb_gt in H2; lia.
Qed.

Definition separated_b (gs : list grammar_rules) : bool :=
  forallb (fun b => forallb (fun t => ttype_eqb (t_type t) TTerminal) (rb_terms b)
                    || forallb (fun t => match t_type t with TNonterminal | TAny | TList => true | _ => false end)
                               (rb_terms b)) (all_bodies gs).
Lemma separated_b_ok gs : separated_b gs = true -> separated gs.
Proof.
  intros H x b Hb. unfold separated_b in H. rewrite forallb_forall in H.
  specialize (H b (has_body_in _ _ _ Hb)). apply orb_prop in H. destruct H as [H|H]; rewrite forallb_forall in H.
  - left. intros t Ht. specialize (H t Ht). destruct (t_type t); simpl in H; congruence.
  - right. intros t Ht. specialize (H t Ht). destruct (t_type t); simpl in H; auto; discriminate.
Qed.

Definition anynamed_b (gs : list grammar_rules) : bool :=
  forallb (fun t => negb (ttype_eqb (t_type t) TAny) || String.eqb (t_value t) "any") (all_terms gs).
Lemma anynamed_b_ok gs : anynamed_b gs = true -> any_named gs.
Proof.
  intros H t Ht Hty. unfold anynamed_b in H. rewrite forallb_forall in H.
  specialize (H t (occurs_in _ _ Ht)). rewrite Hty in H. simpl in H. apply String.eqb_eq. exact H.
Qed.

(** What a parse reports, as a list of (tag, length). *)
Fixpoint finals_of (p : parse_t) (refs : list (nat * nat)) : list (string * nat) :=
  match refs with
  | [] => []
  | ref :: refs' =>
      match p_state p ref with
      | Ret s => match tag s with Ret x => [(x, s_end s)] | _ => [] end
      | _ => []
      end ++ finals_of p refs'
  end.
Definition report_list (r : res parse_t) : option (list (string * nat)) :=
  match r with Ret p => Some (finals_of p (p_finals p)) | _ => None end.

Definition xparse (ord : order) (gs : list grammar_rules) (mf : bool) (words starts : list string) : res parse_t :=
  earley_parse_n xmatch (fun _ => ord) gs "" 200 0 mf (xtoks words) starts.

(** ** The grammars *)

(** An ambiguous, left-recursive and cyclic grammar with empty constituents:
    e = <e> <p> <e> | <n> | <e>,  n = "1" | "2",  p = "+",
    s = <e> | (list<n>{0,3}) (any{0,2}) *)
Definition g_expr : list grammar_rules :=
  [[ xrule "s" [[xN "e"]; [xL "n" 0 3; xA 0 2]];
     xrule "e" [[xN "e"; xN "p"; xN "e"]; [xN "n"]; [xN "e"]];
     xrule "n" [[xT "1"]; [xT "2"]];
     xrule "p" [[xT "+"]] ]].

(** The same without empty constituents. *)
Definition g_plus : list grammar_rules :=
  [[ xrule "e" [[xN "e"; xN "p"; xN "e"]; [xN "n"]; [xL "n" 2 3; xA 1 2]];
     xrule "n" [[xT "1"]; [xT "2"]];
     xrule "p" [[xT "+"]] ]].

(** s = <a> <e> <x> | <e> <y>, a = (any{0,1}), e = (list<q>{0,1}), q, x, y words *)
Definition g_eps : list grammar_rules :=
  [[ xrule "s" [[xN "a"; xN "e"; xN "x"]; [xN "e"; xN "y"]];
     xrule "a" [[xA 0 1]];
     xrule "e" [[xL "q" 0 1]];
     xrule "q" [[xT "q"]]; xrule "x" [[xT "x"]]; xrule "y" [[xT "y"]] ]].


(** Two start rules matching the same longest text:
    A = <P>, B = <B1>, B1 = <R>, P = <Q> | <R> <y>, Q = "x", R = "x" *)
Definition g_tag : list grammar_rules :=
  [[ xrule "A" [[xN "P"]]; xrule "B" [[xN "B1"]]; xrule "B1" [[xN "R"]];
     xrule "P" [[xN "Q"]; [xN "R"; xN "y"]];
     xrule "Q" [[xT "x"]]; xrule "R" [[xT "x"]]; xrule "y" [[xT "y"]] ]].

(** Two ranges: s = (any{1,1}) <x> | (any{2,2}) <y> *)
Definition g_ranges : list grammar_rules :=
  [[ xrule "s" [[xA 1 1; xN "x"]; [xA 2 2; xN "y"]];
     xrule "x" [[xT "x"]]; xrule "y" [[xT "y"]] ]].
(** The same for lists. *)
Definition g_lranges : list grammar_rules :=
  [[ xrule "s" [[xL "q" 1 1; xN "x"]; [xL "q" 2 2; xN "y"]];
     xrule "q" [[xT "q"]]; xrule "x" [[xT "x"]]; xrule "y" [[xT "y"]] ]].

(** The text "a" has two trees: s = <a> | <c>, c = <a>, a = "a". *)
Definition g_two : list grammar_rules :=
  [[ xrule "s" [[xN "a"]; [xN "c"]]; xrule "c" [[xN "a"]]; xrule "a" [[xT "a"]] ]].
Definition xtrees (fuel : nat) (r : res parse_t) : res (list (parse_t * node)) :=
  p <- r ;; extract_parses fuel [p].
Definition tree_list (r : res (list (parse_t * node))) : option (list ptree) :=
  match r with Ret l => Some (map (fun p => erase (snd p)) l) | _ => None end.
(** A user rule with the reserved name: s = <ɣ> <x>, ɣ = <y> *)
Definition g_gamma : list grammar_rules :=
  [[ xrule "s" [[xN GammaRule; xN "x"]]; xrule GammaRule [[xN "y"]];
     xrule "x" [[xT "x"]]; xrule "y" [[xT "y"]] ]].

(** The same range written twice, and two ranges allowing the same span:
    s = (any{1,1}) <x> | (any{1,2}) <x> *)
Definition g_dup : list grammar_rules :=
  [[ xrule "s" [[xA 1 1; xN "x"]; [xA 1 2; xN "x"]]; xrule "x" [[xT "x"]] ]].

(** A left-recursive rule whose semantic argument is not of the announced kind
    (a JSON number in an "int" argument): s = <s> { f(...) } *)
Definition g_untyped : list grammar_rules :=
  [[ ("s", mkRule "s" [(0%N, mkRb [xN "s"] (Some (FMR "f" [Arg "int" (VOther 0)])))]) ]].

(** A start rule that can match nothing: s = (list<q>{0,3}), q = "q" *)
Definition g_nullable : list grammar_rules :=
  [[ xrule "s" [[xL "q" 0 3]]; xrule "q" [[xT "q"]] ]].

