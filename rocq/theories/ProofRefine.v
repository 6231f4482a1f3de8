(** Refinement of terminal texts. *)
From Coq Require Import Lia Permutation DecimalString DecimalN DecimalPos Decimal.
From Verif Require Import Base ModelTypes ModelText ModelQuote ModelEarley ModelReader ModelGrammar
  SpecGrammar SpecNotation SpecRefine ProofReaderMain.

(** ** names *)
Lemma dec_N_inj a b : dec_N a = dec_N b -> a = b.
Proof.
  unfold dec_N. intros H. apply (f_equal NilZero.uint_of_string) in H.
  assert (K : forall n, N.to_uint n <> Decimal.Nil) by (intros [|p]; [discriminate|apply DecimalPos.Unsigned.to_uint_nonnil]).
  rewrite !NilZero.usu in H by apply K. inversion H as [E]. apply DecimalN.Unsigned.to_uint_inj. exact E.
Qed.
Lemma append_inj_l a b c : (a ++ b)%string = (a ++ c)%string -> b = c.
Proof. induction a; cbn; intros H; [exact H|]. inversion H. auto. Qed.
Lemma append_self_neq a c b : (a ++ String c b)%string <> a.
Proof.
  intros H. apply (f_equal String.length) in H. revert H.
  assert (K : forall x y, String.length (x ++ y)%string = String.length x + String.length y)
    by (induction x; intros; cbn; auto). rewrite K. cbn. lia.
Qed.

Lemma string_app_assoc a b c : ((a ++ b) ++ c)%string = (a ++ (b ++ c))%string.
Proof. induction a; cbn; congruence. Qed.

Definition candidate (tname : string) (k : nat) : string :=
  match k with O => tname | S i => (tname ++ "_" ++ dec_N (N.of_nat i))%string end.
Lemma candidate_inj tname a b : candidate tname a = candidate tname b -> a = b.
Proof.
  destruct a as [|a], b as [|b]; cbn [candidate]; intros H; auto.
  - symmetry in H. apply append_self_neq in H. destruct H.
  - apply append_self_neq in H. destruct H.
  - apply append_inj_l in H. inversion H as [H']. apply dec_N_inj in H'. lia.
Qed.

Section Fresh.
  Variable old : string -> bool.
  Variable names : list string.
  Local Notation used x := (old x || existsb (String.eqb x) names).
  Lemma fresh_from n : forall tname k,
    fresh old n tname (candidate tname k) k names <> Panic /\
    fresh old n tname (candidate tname k) k names <> Err /\
    (forall name, fresh old n tname (candidate tname k) k names = Ret name ->
       used name = false /\ exists j, name = candidate tname j /\ forall i, k <= i < j -> used (candidate tname i) = true) /\
    (fresh old n tname (candidate tname k) k names = Fuel ->
       forall j, k <= j < k + n -> used (candidate tname j) = true).
  Proof.
    induction n as [|n IH]; intros tname k; cbn [fresh].
    - repeat split; try discriminate. lia.
    - rewrite <- negb_orb. destruct (used (candidate tname k)) eqn:E; cbn [negb].
      + destruct (IH tname (S k)) as (I1 & I2 & I3 & I4).
        change (tname ++ "_" ++ dec_N (N.of_nat k))%string with (candidate tname (S k)).
        split; [exact I1|]. split; [exact I2|]. split.
        { intros name Hn. destruct (I3 name Hn) as (U & j & Ej & Hj). split; [exact U|]. exists j. split; [exact Ej|].
          intros i Hi. destruct (Nat.eq_dec i k) as [->|Hne]; [exact E|]. apply Hj. lia. }
        intros HF j Hj. destruct (Nat.eq_dec j k) as [->|Hne]; [exact E|]. apply (I4 HF). lia.
      + split; [discriminate|]. split; [discriminate|]. split; [|discriminate].
        intros name H. inversion H; subst. split; [exact E|]. exists k. split; [reflexivity|]. lia.
  Qed.

  Lemma fresh_finds used_names n tname : (forall x, used x = true -> In x used_names) ->
    length used_names < n -> fresh old n tname tname 0 names <> Fuel.
  Proof.
    intros Hu Hn HF. destruct (fresh_from n tname 0) as (_ & _ & _ & I). cbn [candidate] in I.
    specialize (I HF).
    assert (K : incl (map (candidate tname) (seq 0 n)) used_names).
    { intros x Hx. apply in_map_iff in Hx. destruct Hx as (j & <- & Hj). apply in_seq in Hj.
      apply Hu, I. lia. }
    apply NoDup_incl_length in K.
    - rewrite map_length, seq_length in K. lia.
    - apply FinFun.Injective_map_NoDup; [|apply seq_NoDup]. intros a b. apply candidate_inj.
  Qed.
End Fresh.

Lemma prefix_app a b : String.prefix a (a ++ b)%string = true.
Proof. induction a as [|c a IH]; cbn; [destruct b; reflexivity|]. destruct (Ascii.ascii_dec c c); congruence. Qed.
Lemma prefix_trans a b c : String.prefix a b = true -> String.prefix a (b ++ c)%string = true.
Proof.
  revert b. induction a as [|x a IH]; intros b; cbn; [destruct (b ++ c)%string; reflexivity|].
  destruct b as [|y b]; [discriminate|]. cbn. destruct (Ascii.ascii_dec x y); [apply IH|discriminate].
Qed.

Lemma lookup_none_notin {A} (m : list (string * A)) x : lookup m x = None <-> ~ In x (map fst m).
Proof.
  induction m as [|[k a] m IH]; cbn [lookup map fst In]; [tauto|].
  destruct (String.eqb k x) eqn:E.
  - apply String.eqb_eq in E. split; [discriminate|]. intros H. destruct H. auto.
  - rewrite IH. apply String.eqb_neq in E. tauto.
Qed.
Lemma lookup_some_in {A} (m : list (string * A)) x a : lookup m x = Some a -> In (x, a) m.
Proof.
  induction m as [|[k b] m IH]; cbn [lookup]; [discriminate|]. destruct (String.eqb k x) eqn:E.
  - apply String.eqb_eq in E. intros H. inversion H; subst. left. reflexivity.
  - intros H. right. auto.
Qed.
Lemma in_lookup {A} (m : list (string * A)) x a : NoDup (map fst m) -> In (x, a) m -> lookup m x = Some a.
Proof.
  induction m as [|[k b] m IH]; cbn [lookup map fst]; intros Hn; [intros []|]. inversion Hn; subst.
  intros [E|H].
  - inversion E; subst. rewrite String.eqb_refl. reflexivity.
  - destruct (String.eqb k x) eqn:E; [|auto]. apply String.eqb_eq in E. subst k.
    destruct H1. apply (in_map fst) in H. exact H.
Qed.
Lemma put_new {A} (m : list (string * A)) k a : lookup m k = None -> put m k a = m ++ [(k, a)].
Proof.
  induction m as [|[k0 a0] m IH]; cbn [lookup put app]; [reflexivity|].
  destruct (String.eqb k0 k); [discriminate|]. intros H. rewrite IH by exact H. reflexivity.
Qed.
Lemma NoDup_snoc {A} (l : list A) a : NoDup l -> ~ In a l -> NoDup (l ++ [a]).
Proof.
  intros H Ha. apply NoDup_Add with (a := a) (l := l).
  - rewrite <- (app_nil_r l) at 1. apply Add_app.
  - auto.
Qed.

Section RefineProof.
  Variable tokenize : string -> res (list token).
  Variable ascii_name : string -> string.
  Variable hash : rulebody -> N.
  Variable rules : grammar_rules.
  Variable fuel : nat.
  Variable prefix : string.
  Local Notation old := (fun x => match lookup rules x with Some _ => true | None => false end).
  Local Notation refine_term := (refine_term tokenize ascii_name hash old fuel prefix).
  Local Notation refine_terms := (refine_terms tokenize ascii_name hash old fuel prefix).
  Local Notation refine_bodies := (refine_bodies tokenize ascii_name hash old fuel prefix).
  Local Notation refine_rules := (refine_rules tokenize ascii_name hash old fuel prefix).

  Definition text_rule (vx : string * string) (r : rule) : Prop :=
    exists toks m, tokenize (fst vx) = Ret toks /\ terminal_occurs rules (fst vx) m /\
      let b := mkRb (token_terms m toks) None in r = mkRule (snd vx) [(hash b, b)].
  Definition first_names (T : list (string * string)) : Prop :=
    forall v x, In (v, x) T -> exists ks k, tokenize v = Ret ks /\ x = candidate (new_name ascii_name ks (prefix ++ "_t")) k /\
      forall j, j < k -> lookup rules (candidate (new_name ascii_name ks (prefix ++ "_t")) j) <> None \/
        In (candidate (new_name ascii_name ks (prefix ++ "_t")) j) (map snd T).
  Definition RInv (s : rstate) : Prop :=
    NoDup (map fst (rf_terminals s)) /\ NoDup (map snd (rf_terminals s)) /\
    rf_names s = map snd (rf_terminals s) /\
    Forall2 text_rule (rf_terminals s) (rf_rules s) /\
    (forall x, In x (map snd (rf_terminals s)) -> lookup rules x = None) /\
    first_names (rf_terminals s).
  Definition extends (s s' : rstate) : Prop := exists T, rf_terminals s' = rf_terminals s ++ T.
  Lemma extends_refl s : extends s s. Proof. exists []. rewrite app_nil_r. reflexivity. Qed.
  Lemma extends_trans a b c : extends a b -> extends b c -> extends a c.
  Proof. intros [x Hx] [y Hy]. exists (x ++ y). rewrite Hy, Hx, app_assoc. reflexivity. Qed.
  Lemma replaced_ext s s' t t' : extends s s' -> replaced (rf_terminals s) t t' -> replaced (rf_terminals s') t t'.
  Proof.
    intros [T HT] [(H & x & Hx & E)|H]; [left|right; exact H]. split; [exact H|]. exists x. split; [|exact E].
    rewrite HT. apply in_or_app. auto.
  Qed.
  Lemma replaced_ext_list s s' l l' : extends s s' -> Forall2 (replaced (rf_terminals s)) l l' ->
    Forall2 (replaced (rf_terminals s')) l l'.
  Proof. intros He H. induction H; constructor; eauto using replaced_ext. Qed.

  Lemma new_name_prefix toks : forall p, exists q, new_name ascii_name toks p = (p ++ q)%string.
  Proof.
    unfold new_name. induction (filter _ toks) as [|k l IH]; intros p; cbn [fold_left].
    - exists ""%string. induction p; cbn; congruence.
    - destruct (ling_punct k); [apply IH|].
      destruct (IH (p ++ "_" ++ ascii_name (tok_text k))%string) as (q & ->).
      eexists. rewrite string_app_assoc. reflexivity.
  Qed.

  Definition size_left (s : rstate) : nat := length rules + length (rf_terminals s).

  Lemma refine_term_ok t s : RInv s -> (t_type t = TTerminal -> terminal_occurs rules (t_value t) (t_meta t)) ->
    match refine_term t s with
    | Ret (t', s') => RInv s' /\ extends s s' /\ replaced (rf_terminals s') t t'
                      /\ length (rf_terminals s') <= S (length (rf_terminals s))
    | Err => exists v, tokenize v = Err
    | Panic => exists v, tokenize v = Panic
    | Fuel => (exists v, tokenize v = Fuel) \/ fuel <= size_left s
    end.
  Proof.
    intros HI Hocc. unfold ModelGrammar.refine_term.
    destruct (t_type t) eqn:Et;
      try (split; [exact HI|]; split; [apply extends_refl|]; split; [right; split; [congruence|reflexivity]|lia]).
    specialize (Hocc eq_refl). destruct HI as (I1 & I2 & I3 & I4 & I5 & I6).
    destruct (lookup (rf_terminals s) (t_value t)) as [x|] eqn:L.
    - split; [split; auto|]. split; [apply extends_refl|]. split; [|lia]. left. split; [exact Et|].
      exists x. split; [|reflexivity]. apply lookup_some_in. exact L.
    - destruct (tokenize (t_value t)) as [toks| | |] eqn:Ek; cbn [bind]; eauto.
      set (tname := new_name ascii_name toks (prefix ++ "_t")).
      destruct (fresh_from old (rf_names s) fuel tname 0) as (F1 & F2 & F3 & F4). cbn [candidate] in *.
      destruct (fresh old fuel tname tname 0 (rf_names s)) as [name| | |] eqn:Ef; cbn [bind]; try congruence.
      + destruct (F3 _ eq_refl) as (U & j & Ej & Hj). apply orb_false_iff in U. destruct U as [U1 U2].
        assert (Hnew : ~ In name (map snd (rf_terminals s))).
        { rewrite <- I3. intros Hin. assert (K : existsb (String.eqb name) (rf_names s) = true).
          { apply existsb_exists. exists name. split; [exact Hin|apply String.eqb_refl]. } congruence. }
        assert (Hname : lookup rules name = None) by (destruct (lookup rules name); [discriminate|reflexivity]).
        assert (Eput := put_new (rf_terminals s) (t_value t) name L).
        unfold RInv, extends. cbn [rf_terminals rf_names rf_rules]. rewrite Eput.
        split; [|split; [eexists; reflexivity|split; [|rewrite app_length; cbn [length]; lia]]].
        * rewrite !map_app. cbn [map fst snd]. rewrite I3.
          split; [apply NoDup_snoc; [exact I1|apply lookup_none_notin; exact L]|].
          split; [apply NoDup_snoc; auto|]. split; [reflexivity|].
          split; [apply Forall2_app; [exact I4|repeat constructor]|].
          { exists toks, (t_meta t). split; [exact Ek|]. split; [exact Hocc|]. reflexivity. }
          split; [intros x Hx; apply in_app_or in Hx; destruct Hx as [Hx|[<-|[]]]; auto|].
          intros v x Hx. rewrite map_app. apply in_app_or in Hx. destruct Hx as [Hx|[[= <- <-]|[]]].
          -- destruct (I6 v x Hx) as (ks & k & K1 & K2 & K3). exists ks, k. split; [exact K1|]. split; [exact K2|].
             intros i Hi. destruct (K3 i Hi) as [K|K]; [left; exact K|right; apply in_or_app; left; exact K].
          -- exists toks, j. split; [exact Ek|]. split; [exact Ej|]. fold tname. intros i Hi. specialize (Hj i ltac:(lia)).
             apply orb_true_iff in Hj. destruct Hj as [Hj|Hj]; [left; destruct (lookup rules (candidate tname i)); congruence|].
             right. apply in_or_app. left. rewrite <- I3. apply existsb_exists in Hj. destruct Hj as (y & Hy & E). apply String.eqb_eq in E. subst. exact Hy.
        * left. split; [exact Et|]. exists name. split; [apply in_or_app; right; left; reflexivity|reflexivity].
      + right. unfold size_left. apply Nat.nlt_ge. intros Hlt.
        apply (fresh_finds old (rf_names s) (map fst rules ++ rf_names s) fuel tname); auto.
        * intros x Hx. apply in_or_app. apply orb_true_iff in Hx. destruct Hx as [Hx|Hx].
          -- left. destruct (in_dec string_dec x (map fst rules)) as [?|Hn]; [assumption|].
             apply lookup_none_notin in Hn. rewrite Hn in Hx. discriminate.
          -- right. apply existsb_exists in Hx. destruct Hx as (y & Hy & E). apply String.eqb_eq in E. subst. exact Hy.
        * rewrite app_length, I3, !map_length. exact Hlt.
  Qed.

  Definition ok_terms (ts : list term) : Prop :=
    Forall (fun t => t_type t = TTerminal -> terminal_occurs rules (t_value t) (t_meta t)) ts.
  Definition rpost {A} (n : nat) (s : rstate) (P : A -> rstate -> Prop) (x : res (A * rstate)) : Prop :=
    match x with
    | Ret (a, s') => RInv s' /\ extends s s' /\ length (rf_terminals s') <= n + length (rf_terminals s) /\ P a s'
    | Err => exists v, tokenize v = Err
    | Panic => exists v, tokenize v = Panic
    | Fuel => (exists v, tokenize v = Fuel) \/ fuel < n + size_left s
    end.

  Lemma refine_terms_ok ts : forall s, RInv s -> ok_terms ts ->
    rpost (length ts) s (fun ts' s' => Forall2 (replaced (rf_terminals s')) ts ts') (refine_terms ts s).
  Proof.
    induction ts as [|t ts IH]; intros s HI Hok; cbn [ModelGrammar.refine_terms length].
    - cbn [rpost]. split; [exact HI|]. split; [apply extends_refl|]. split; [lia|constructor].
    - inversion Hok as [|? ? Ht Hts]; subst. pose proof (refine_term_ok t s HI Ht) as K.
      destruct (refine_term t s) as [[t' s1]| | |]; cbn [bind rpost] in *; try exact K.
      2: { destruct K as [K|K]; [left; exact K|right; lia]. }
      destruct K as (I1 & E1 & R1 & L1). specialize (IH s1 I1 Hts).
      destruct (refine_terms ts s1) as [[ts' s2]| | |]; cbn [bind rpost] in *; try exact IH.
      + destruct IH as (I2 & E2 & L2 & R2). split; [exact I2|]. split; [eapply extends_trans; eauto|].
        split; [lia|]. constructor; [eapply replaced_ext; eauto|exact R2].
      + unfold size_left in *. destruct IH as [IH|IH]; [left; exact IH|right; lia].
  Qed.

  Fixpoint terms_in (l : list (N * rulebody)) : nat :=
    match l with [] => 0 | (_, b) :: l' => length (rb_terms b) + terms_in l' end.
  Fixpoint terms_of (l : grammar_rules) : nat :=
    match l with [] => 0 | (_, r) :: l' => terms_in (r_body r) + terms_of l' end.

  Definition body_pair (T : list (string * string)) (a b : N * rulebody) : Prop :=
    fst a = fst b /\ replaced_body T (snd a) (snd b).
  Definition rule_pair (T : list (string * string)) (a b : string * rule) : Prop :=
    fst a = fst b /\ r_name (snd a) = r_name (snd b) /\ Forall2 (body_pair T) (r_body (snd a)) (r_body (snd b)).
  Lemma body_pair_ext s s' a b : extends s s' -> body_pair (rf_terminals s) a b -> body_pair (rf_terminals s') a b.
  Proof. intros He (H1 & H2 & H3). split; [exact H1|]. split; [exact H2|]. eapply replaced_ext_list; eauto. Qed.
  Lemma rule_pair_ext s s' a b : extends s s' -> rule_pair (rf_terminals s) a b -> rule_pair (rf_terminals s') a b.
  Proof.
    intros He (H1 & H2 & H3). split; [exact H1|]. split; [exact H2|].
    induction H3; constructor; eauto using body_pair_ext.
  Qed.

  Lemma refine_bodies_ok l : forall s, RInv s -> Forall (fun hb => ok_terms (rb_terms (snd hb))) l ->
    rpost (terms_in l) s (fun l' s' => Forall2 (body_pair (rf_terminals s')) l l') (refine_bodies l s).
  Proof.
    induction l as [|[h b] l IH]; intros s HI Hok; cbn [ModelGrammar.refine_bodies terms_in].
    - cbn [rpost]. split; [exact HI|]. split; [apply extends_refl|]. split; [lia|constructor].
    - inversion Hok as [|? ? Hb Hl]; subst. cbn [snd] in Hb. pose proof (refine_terms_ok (rb_terms b) s HI Hb) as K.
      destruct (refine_terms (rb_terms b) s) as [[ts s1]| | |]; cbn [bind rpost] in *; try exact K.
      2: { destruct K as [K|K]; [left; exact K|right; lia]. }
      destruct K as (I1 & E1 & L1 & R1). specialize (IH s1 I1 Hl).
      destruct (refine_bodies l s1) as [[l' s2]| | |]; cbn [bind rpost] in *; try exact IH.
      + destruct IH as (I2 & E2 & L2 & R2). split; [exact I2|]. split; [eapply extends_trans; eauto|].
        split; [lia|]. constructor; [|exact R2]. split; [reflexivity|]. split; [reflexivity|].
        cbn [snd rb_terms]. eapply replaced_ext_list; eauto.
      + unfold size_left in *. destruct IH as [IH|IH]; [left; exact IH|right; lia].
  Qed.
  Lemma refine_rules_ok l : forall s, RInv s ->
    Forall (fun xr => Forall (fun hb => ok_terms (rb_terms (snd hb))) (r_body (snd xr))) l ->
    rpost (terms_of l) s (fun l' s' => Forall2 (rule_pair (rf_terminals s')) l l') (refine_rules l s).
  Proof.
    induction l as [|[x r] l IH]; intros s HI Hok; cbn [ModelGrammar.refine_rules terms_of].
    - cbn [rpost]. split; [exact HI|]. split; [apply extends_refl|]. split; [lia|constructor].
    - inversion Hok as [|? ? Hb Hl]; subst. cbn [snd] in Hb. pose proof (refine_bodies_ok (r_body r) s HI Hb) as K.
      destruct (refine_bodies (r_body r) s) as [[b s1]| | |]; cbn [bind rpost] in *; try exact K.
      2: { destruct K as [K|K]; [left; exact K|right; lia]. }
      destruct K as (I1 & E1 & L1 & R1). specialize (IH s1 I1 Hl).
      destruct (refine_rules l s1) as [[l' s2]| | |]; cbn [bind rpost] in *; try exact IH.
      + destruct IH as (I2 & E2 & L2 & R2). split; [exact I2|]. split; [eapply extends_trans; eauto|].
        split; [lia|]. constructor; [|exact R2]. split; [reflexivity|]. split; [reflexivity|].
        cbn [snd r_body]. clear - R1 E2. induction R1; constructor; eauto using body_pair_ext.
      + unfold size_left in *. destruct IH as [IH|IH]; [left; exact IH|right; lia].
  Qed.

  Lemma put_rules l : forall m : grammar_rules, NoDup (map r_name l) ->
    (forall x, In x (map r_name l) -> ~ In x (map fst m)) ->
    fold_left (fun m r => put m (r_name r) r) l m = m ++ map (fun r => (r_name r, r)) l.
  Proof.
    induction l as [|r l IH]; intros m Hn Hd; cbn [fold_left map]; [rewrite app_nil_r; reflexivity|].
    inversion Hn; subst. rewrite put_new.
    - rewrite IH; [rewrite <- app_assoc; reflexivity|assumption|].
      intros x Hx Hin. rewrite map_app in Hin. apply in_app_or in Hin. destruct Hin as [Hin|[E|[]]].
      + apply (Hd x); [right; exact Hx|exact Hin].
      + cbn [fst] in E. subst x. auto.
    - apply lookup_none_notin. apply Hd. left. reflexivity.
  Qed.

  Lemma lookup_app {A} (m m' : list (string * A)) x :
    lookup (m ++ m') x = match lookup m x with Some a => Some a | None => lookup m' x end.
  Proof. induction m as [|[k a] m IH]; cbn [lookup app]; [reflexivity|]. destruct (String.eqb k x); auto. Qed.

  Lemma pair_lookup T l l' : Forall2 (rule_pair T) l l' -> forall x,
    match lookup l x with
    | Some r => exists r', lookup l' x = Some r' /\ rule_pair T (x, r) (x, r')
    | None => lookup l' x = None
    end.
  Proof.
    induction 1 as [|[k r] [k' r'] l l' (H1 & H2 & H3) _ IH]; intros x; cbn [lookup fst snd] in *; [reflexivity|].
    subst k'. destruct (String.eqb k x); [|apply IH]. exists r'. split; [reflexivity|]. split; [reflexivity|]. auto.
  Qed.
  Lemma pair_keys T l l' : Forall2 (rule_pair T) l l' -> map fst l' = map fst l.
  Proof. induction 1 as [|a b l l' (H1 & _) _ IH]; cbn [map]; [reflexivity|]. rewrite IH, H1. reflexivity. Qed.
  Lemma body_keys T l l' : Forall2 (body_pair T) l l' -> map fst l' = map fst l.
  Proof. induction 1 as [|a b l l' (H1 & _) _ IH]; cbn [map]; [reflexivity|]. rewrite IH, H1. reflexivity. Qed.
  Lemma Forall2_in_l {A B} (R : A -> B -> Prop) l l' a : Forall2 R l l' -> In a l -> exists b, In b l' /\ R a b.
  Proof. induction 1; intros []; subst; [eexists; split; [left; reflexivity|assumption]|]. destruct IHForall2 as (b & ? & ?); auto. exists b. split; [right|]; assumption. Qed.
  Lemma Forall2_in_r {A B} (R : A -> B -> Prop) l l' b : Forall2 R l l' -> In b l' -> exists a, In a l /\ R a b.
  Proof. induction 1; intros []; subst; [eexists; split; [left; reflexivity|assumption]|]. destruct IHForall2 as (a & ? & ?); auto. exists a. split; [right|]; assumption. Qed.

  Lemma in_occurs x r h b t : NoDup (map fst rules) -> In (x, r) rules -> In (h, b) (r_body r) -> In t (rb_terms b) ->
    occurs [rules] t.
  Proof.
    intros Hn Hr Hb Ht. exists x, b. split; [|exact Ht]. exists rules, r, h. split; [left; reflexivity|].
    split; [apply in_lookup; assumption|exact Hb].
  Qed.

  Lemma refine_ok gt : proper rules ->
    match refine tokenize ascii_name hash fuel prefix rules gt with
    | Ret (rules', _) => exists T, refined_by tokenize hash T rules rules'
                           /\ first_names T
    | Err => exists v, tokenize v = Err
    | Panic => exists v, tokenize v = Panic
    | Fuel => (exists v, tokenize v = Fuel) \/ fuel < terms_of rules + length rules
    end.
  Proof.
    intros [P1 P2]. unfold refine.
    assert (H0 : RInv (mkR [] [] [] gt)).
    { unfold RInv. cbn [rf_terminals rf_names rf_rules map]. split; [constructor|]. split; [constructor|]. split; [reflexivity|]. split; [constructor|]. split; [intros x []|intros v x []]. }
    assert (Hok : Forall (fun xr => Forall (fun hb => ok_terms (rb_terms (snd hb))) (r_body (snd xr))) rules).
    { apply Forall_forall. intros [x r] Hr. apply Forall_forall. intros [h b] Hb. apply Forall_forall.
      intros t Ht Et. exists t. split; [eapply in_occurs; eauto|]. auto. }
    pose proof (refine_rules_ok rules _ H0 Hok) as K.
    destruct (refine_rules rules (mkR [] [] [] gt)) as [[rules1 s]| | |]; cbn [bind rpost] in *; try exact K.
    2: { unfold size_left in K. cbn [rf_terminals length] in K. destruct K as [K|K]; [left; exact K|right; lia]. }
    destruct K as ((I1 & I2 & I3 & I4 & I5 & I6) & _ & _ & RP).
    set (T := rf_terminals s) in *. exists T. split; [|exact I6].
    assert (EN : map r_name (rf_rules s) = map snd T).
    { clear - I4. induction I4 as [|[v x] r l l' (toks & m & _ & _ & E) _ IH]; cbn [map snd]; [reflexivity|].
      rewrite IH, E. reflexivity. }
    assert (EK := pair_keys _ _ _ RP).
    rewrite put_rules; cycle 1.
    { rewrite EN. exact I2. }
    { rewrite EN, EK. intros x Hx. apply lookup_none_notin. apply I5. exact Hx. }
    assert (LR : forall v x, In (v, x) T -> exists r, In r (rf_rules s) /\ text_rule (v, x) r).
    { intros v x Hx. destruct (Forall2_in_l _ _ _ _ I4 Hx) as (r & Hr & E). exists r. auto. }
    assert (NK : NoDup (map fst (rules1 ++ map (fun r => (r_name r, r)) (rf_rules s)))).
    { rewrite map_app, map_map, EK. change (map (fun x => fst (r_name x, x)) (rf_rules s)) with (map r_name (rf_rules s)). rewrite EN.
      assert (Hd : forall x, In x (map snd T) -> ~ In x (map fst rules)) by (intros x Hx; apply lookup_none_notin, I5, Hx).
      clear - P1 I2 Hd. induction (map fst rules) as [|y l IH]; [exact I2|]. inversion P1; subst. cbn [app]. constructor.
      - intros Hin. apply in_app_or in Hin. destruct Hin as [Hin|Hin]; [auto|]. apply (Hd _ Hin). left. reflexivity.
      - apply IH; [assumption|]. intros x Hx Hin. apply (Hd x Hx). right. exact Hin. }
    split; [exact I1|]. split; [exact I2|].
    split. { split; [exact NK|]. intros x r Hr. apply in_app_or in Hr. destruct Hr as [Hr|Hr].
      - destruct (Forall2_in_r _ _ _ _ RP Hr) as ([x0 r0] & Hr0 & _ & _ & HB). cbn [snd] in HB.
        rewrite (body_keys _ _ _ HB). eapply P2. exact Hr0.
      - apply in_map_iff in Hr. destruct Hr as (r0 & E & Hr0). inversion E; subst.
        destruct (Forall2_in_r _ _ _ _ I4 Hr0) as ([v y] & _ & toks & m & _ & _ & E0). cbv zeta in E0. rewrite E0.
        cbn [r_body map fst]. repeat constructor. intros []. }
    split; [intros x Hx; apply I5; exact Hx|].
    split. { intros x r L. pose proof (pair_lookup _ _ _ RP x) as PL. rewrite L in PL.
      destruct PL as (r' & L' & _ & EN' & HB). cbn [snd] in *. exists r'. rewrite lookup_app, L'.
      split; [reflexivity|]. split; [auto|]. split.
      - intros h b Hb. destruct (Forall2_in_l _ _ _ _ HB Hb) as ([h' b'] & Hb' & E1 & E2). cbn [fst snd] in *. subst h'.
        exists b'. auto.
      - intros h b' Hb. destruct (Forall2_in_r _ _ _ _ HB Hb) as ([h' b] & Hb' & E1 & E2). cbn [fst snd] in *. subst h'.
        exists b. auto. }
    split. { intros v x Hx. destruct (LR v x Hx) as (r & Hr & toks & m & Ek & Hocc & E). cbn [fst snd] in *.
      exists toks, m. split; [exact Ek|]. split; [exact Hocc|]. cbv zeta. cbv zeta in E. rewrite <- E.
      apply in_lookup; [exact NK|]. apply in_or_app. right. apply in_map_iff. exists r. split; [|exact Hr].
      rewrite E. reflexivity. }
    intros x L Hx. rewrite lookup_app. pose proof (pair_lookup _ _ _ RP x) as PL. rewrite L in PL. rewrite PL.
    apply lookup_none_notin. rewrite map_map. change (map (fun x => fst (r_name x, x)) (rf_rules s)) with (map r_name (rf_rules s)). rewrite EN. exact Hx.
  Qed.
End RefineProof.

(** ** the names *)
Lemma concat_cons s l : String.concat "" (s :: l) = (s ++ String.concat "" l)%string.
Proof. destruct l; cbn [String.concat]; [induction s; cbn; congruence|reflexivity]. Qed.
Lemma usual_new_name ascii ks : usual_name ascii ks = new_name ascii ks "g_t".
Proof.
  unfold usual_name, new_name. rewrite concat_cons. generalize "g_t"%string as p.
  induction ks as [|k ks IH]; intros p; cbn [filter map fold_left].
  - cbn. induction p; cbn; congruence.
  - assert (M : is_mark k = (ling_space k || ling_punct k)%bool) by (unfold is_mark, ling_space, ling_punct; destruct (tok_type k); reflexivity).
    rewrite M. destruct (ling_space k); cbn [orb negb map fold_left filter]; [apply IH|]. destruct (ling_punct k); cbn [negb map]; [apply IH|].
    rewrite concat_cons, <- IH.
      generalize (ascii (tok_text k)) (String.concat "" (map (fun k => ("_" ++ ascii (tok_text k))%string) (filter (fun k => negb (is_mark k)) ks)));
      intros s r; clear; induction p as [|c p IH]; [reflexivity|]. change (String c (p ++ ("_" ++ s) ++ r) = String c ((p ++ "_" ++ s) ++ r))%string. f_equal. exact IH.
Qed.
Lemma first_named tokenize ascii rules T : first_names tokenize ascii rules "g" T -> named_by tokenize ascii T rules.
Proof.
  intros H v x Hx. destruct (H v x Hx) as (ks & k & K1 & K2 & K3). exists ks, k. rewrite usual_new_name.
  split; [exact K1|]. split; [exact K2|exact K3].
Qed.
Lemma named_prefix tokenize ascii T rules : named_by tokenize ascii T rules -> forall x, In x (map snd T) -> String.prefix "g_t" x = true.
Proof.
  intros H x Hx. apply in_map_iff in Hx as ([v y] & <- & Hx). destruct (H v y Hx) as (ks & k & _ & -> & _). cbn [snd].
  assert (K : String.prefix "g_t" (usual_name ascii ks) = true) by (unfold usual_name; rewrite concat_cons; apply prefix_app).
  destruct k; cbn [numbered]; [exact K|apply prefix_trans; exact K].
Qed.

(** ** the order in which the rules are visited *)
Lemma reordered_refl m : reordered m m.
Proof.
  exists m. split; [apply Permutation_refl|]. induction m; constructor; auto.
Qed.
Lemma reordered_in m m' : reordered m m' ->
  (forall x r, In (x, r) m -> exists r', In (x, r') m' /\ r_name r' = r_name r /\ Permutation (r_body r) (r_body r')) /\
  (forall x r', In (x, r') m' -> exists r, In (x, r) m /\ r_name r' = r_name r /\ Permutation (r_body r) (r_body r')).
Proof.
  intros (m1 & HP & HF). split.
  - intros x r Hr. apply (Permutation_in _ HP) in Hr.
    destruct (Forall2_in_l _ _ _ _ HF Hr) as ([y r'] & Hr' & E1 & E2 & E3). cbn [fst snd] in *. subst y. exists r'. auto.
  - intros x r Hr. destruct (Forall2_in_r _ _ _ _ HF Hr) as ([y r'] & Hr' & E1 & E2 & E3). cbn [fst snd] in *. subst y.
    exists r'. split; [apply Permutation_in with (1 := Permutation_sym HP); exact Hr'|]. auto.
Qed.
Lemma reordered_keys m m' : reordered m m' -> Permutation (map fst m) (map fst m').
Proof.
  intros (m1 & HP & HF). apply Permutation_map with (f := fst) in HP. eapply Permutation_trans; [exact HP|].
  clear HP. induction HF as [|a b l l' (H & _) _ IH]; cbn [map]; [constructor|]. rewrite H. constructor. exact IH.
Qed.
Lemma reordered_proper m m' : reordered m m' -> proper m -> proper m'.
Proof.
  intros R [P1 P2]. split; [eapply Permutation_NoDup; [apply reordered_keys; eassumption|exact P1]|].
  intros x r' Hr. destruct (proj2 (reordered_in _ _ R) x r' Hr) as (r & Hin & _ & HB).
  eapply Permutation_NoDup; [apply Permutation_map; exact HB|]. eapply P2. exact Hin.
Qed.
Lemma reordered_lookup m m' x : proper m -> reordered m m' ->
  match lookup m x with
  | Some r => exists r', lookup m' x = Some r' /\ r_name r' = r_name r /\ Permutation (r_body r) (r_body r')
  | None => lookup m' x = None
  end.
Proof.
  intros P R. destruct (lookup m x) as [r|] eqn:L.
  - apply lookup_some_in in L. destruct (proj1 (reordered_in _ _ R) x r L) as (r' & Hin & E1 & E2).
    exists r'. split; [|auto]. apply in_lookup; [|exact Hin]. apply (reordered_proper _ _ R P).
  - apply lookup_none_notin. apply lookup_none_notin in L. intros Hin. apply L.
    eapply Permutation_in; [apply Permutation_sym, reordered_keys; eassumption|exact Hin].
Qed.
Lemma reordered_body m m' x b : proper m -> reordered m m' -> (has_body [m] x b <-> has_body [m'] x b).
Proof.
  intros P R. pose proof (reordered_lookup m m' x P R) as K. split.
  - intros (g & r & h & [<-|[]] & L & Hb). rewrite L in K. destruct K as (r' & L' & _ & HP).
    exists m', r', h. split; [left; reflexivity|]. split; [exact L'|]. eapply Permutation_in; eauto.
  - intros (g & r' & h & [<-|[]] & L & Hb). destruct (lookup m x) as [r|] eqn:L'; [|congruence].
    destruct K as (r'' & L'' & _ & HP). rewrite L in L''. inversion L''; subst r''.
    exists m, r, h. split; [left; reflexivity|]. split; [exact L'|].
    eapply Permutation_in; [apply Permutation_sym; exact HP|exact Hb].
Qed.
Lemma reordered_occurs m m' t : proper m -> reordered m m' -> (occurs [m] t <-> occurs [m'] t).
Proof.
  intros P R. split; intros (x & b & Hb & Ht); exists x, b; (split; [|exact Ht]);
    apply (reordered_body m m' x b P R); exact Hb.
Qed.
Lemma reordered_named tokenize ascii T m m' : proper m -> reordered m m' -> named_by tokenize ascii T m' -> named_by tokenize ascii T m.
Proof.
  intros P R H v x Hx. destruct (H v x Hx) as (ks & k & K1 & K2 & K3). exists ks, k. split; [exact K1|]. split; [exact K2|].
  intros j Hj. destruct (K3 j Hj) as [K|K]; [left|right; exact K].
  pose proof (reordered_lookup m m' (numbered (usual_name ascii ks) j) P R) as E. intros C. rewrite C in E. auto.
Qed.
Lemma reordered_refined tokenize hash T m m' rules' : proper m -> reordered m m' ->
  refined_by tokenize hash T m' rules' -> refined_by tokenize hash T m rules'.
Proof.
  intros P R (R1 & R2 & R3 & R4 & R5 & R6 & R7). split; [exact R1|]. split; [exact R2|]. split; [exact R3|].
  assert (LN : forall x, lookup m' x = None -> lookup m x = None).
  { intros x L. pose proof (reordered_lookup m m' x P R) as K. destruct (lookup m x); [|reflexivity].
    destruct K as (r' & K & _). congruence. }
  split; [intros x Hx; apply LN; auto|]. split.
  { intros x r L. pose proof (reordered_lookup m m' x P R) as K. rewrite L in K.
    destruct K as (r' & L' & EN & HP). destruct (R5 x r' L') as (r2 & L2 & EN2 & A & B).
    exists r2. split; [exact L2|]. split; [congruence|]. split.
    - intros h b Hb. apply A. eapply Permutation_in; eauto.
    - intros h b' Hb. destruct (B h b' Hb) as (b & Hb' & E). exists b. split; [|exact E].
      eapply Permutation_in; [apply Permutation_sym; exact HP|exact Hb']. }
  split.
  { intros v x Hx. destruct (R6 v x Hx) as (toks & mt & E1 & (t & Ht & E2) & E3). exists toks, mt.
    split; [exact E1|]. split; [|exact E3]. exists t. split; [|exact E2]. apply (reordered_occurs m m' t P R). exact Ht. }
  intros x L Hx. apply R7; [|exact Hx]. pose proof (reordered_lookup m m' x P R) as K. rewrite L in K. exact K.
Qed.
Lemma terms_in_perm l l' : Permutation l l' -> terms_in l = terms_in l'.
Proof. induction 1 as [|[h b] l l'|[h b] [h' b'] l|]; cbn [terms_in]; lia. Qed.
Lemma reordered_size m m' : reordered m m' -> terms_of m' = terms_of m /\ length m' = length m.
Proof.
  intros (m1 & HP & HF).
  assert (E1 : terms_of m = terms_of m1 /\ length m = length m1).
  { split; [|apply Permutation_length; exact HP].
    clear HF. induction HP as [|[h b] l l'|[h b] [h' b'] l|]; cbn [terms_of]; lia. }
  assert (E2 : terms_of m' = terms_of m1 /\ length m' = length m1).
  { clear - HF. induction HF as [|[x r] [x' r'] l l' (H1 & H2 & H3) _ [IH1 IH2]]; cbn [terms_of length snd] in *; [auto|].
    apply terms_in_perm in H3. lia. }
  lia.
Qed.

(** ** refinement preserves the language *)
Section Language.
  Variable tokenize : string -> res (list token).
  Variable hash : rulebody -> N.
  Variable tmatch : term -> option token -> bool.
  Variable toks : list token.
  (** the alternatives of the rules before and after *)
  Variables alt alt' : string -> list term -> Prop.
  Variable gen : string -> Prop.

  Local Notation DR := (derives alt' (accepts_by tmatch) toks own_range (fun _ _ => True)).
  Local Notation DRs := (derives_seq alt' (accepts_by tmatch) toks own_range (fun _ _ => True)).
  Local Notation DS := (derives alt (accepts_by tmatch) toks own_range (fun _ _ => True)).
  Local Notation DSs := (derives_seq alt (accepts_by tmatch) toks own_range (fun _ _ => True)).

  (** [t'] stands for [t] in the refined grammars *)
  Definition stands (t t' : term) : Prop :=
    (t_type t = TTerminal /\ exists x, t' = mkTerm x TNonterminal (t_meta t) /\
       forall ts, alt' x ts <-> exists tk, tokenize (t_value t) = Ret tk /\ ts = token_terms (t_meta t) tk)
    \/ (t_type t <> TTerminal /\ t' = t).
  Definition fine (t : term) : Prop := t_type t = TNonterminal \/ t_type t = TList -> ~ gen (t_value t).
  Definition words (ts : list term) : Prop := Forall (fun t => t_type t = TTerminal) ts.
  Hypothesis old_alt_back : forall x ts', ~ gen x -> alt' x ts' ->
    (exists ts0, (forall ts, split_terms tokenize ts0 ts -> alt x ts) /\ Forall2 stands ts0 ts' /\ Forall fine ts0)
    \/ (alt x ts' /\ words ts').
  Hypothesis old_alt : forall x ts, alt x ts ->
    (exists ts0 ts', split_terms tokenize ts0 ts /\ alt' x ts' /\ Forall2 stands ts0 ts' /\ Forall fine ts0)
    \/ (alt' x ts /\ words ts).

  Lemma derives_seq_app {al acc tk co so} a b i k :
    derives_seq al acc tk co so (a ++ b) i k <->
    exists j, derives_seq al acc tk co so a i j /\ derives_seq al acc tk co so b j k.
  Proof.
    split.
    - revert i. induction a as [|t a IH]; intros i H; cbn [app] in H.
      + exists i. split; [constructor|exact H].
      + inversion H; subst. destruct (IH _ H5) as (j' & A & B). exists j'. split; [econstructor; eauto|exact B].
    - intros (j & A & B). induction A; [exact B|]. cbn [app]. econstructor; eauto.
  Qed.
  Lemma terminals_any {al al' acc tk co so} ts i j : Forall (fun t => t_type t = TTerminal) ts ->
    derives_seq al acc tk co so ts i j -> derives_seq al' acc tk co so ts i j.
  Proof.
    intros H. revert i. induction H as [|t ts Ht _ IH]; intros i D; inversion D; subst; [constructor|].
    econstructor; [|apply IH; eassumption].
    match goal with K : derives _ _ _ _ _ t _ _ |- _ => inversion K; subst; try congruence; econstructor; eassumption end.
  Qed.
  Lemma token_terms_terminal m tk : Forall (fun t => t_type t = TTerminal) (token_terms m tk).
  Proof. unfold token_terms. apply Forall_forall. intros t Ht. apply in_map_iff in Ht. destruct Ht as (k & <- & _). reflexivity. Qed.

  Lemma split_plain ts ts' : Forall (fun t => t_type t <> TTerminal) ts -> split_terms tokenize ts ts' -> ts' = ts.
  Proof. intros H S. induction S; inversion H; subst; [reflexivity|congruence|]. rewrite IHS by assumption. reflexivity. Qed.
  Lemma repeat_plain x n : Forall (fun t => t_type t <> TTerminal) (repeat (nonterm x) n).
  Proof. induction n; cbn [repeat]; constructor; [discriminate|assumption]. Qed.
  Lemma repeat_fine x n : ~ gen x -> Forall fine (repeat (nonterm x) n).
  Proof. intros H. induction n; cbn [repeat]; constructor; [|assumption]. intros _; exact H. Qed.
  Lemma repeat_replaced x n : Forall2 (stands) (repeat (nonterm x) n) (repeat (nonterm x) n).
  Proof. induction n; cbn [repeat]; constructor; [|assumption]. right. split; [discriminate|reflexivity]. Qed.

  Lemma refined_to_split :
    (forall t' i j, DR t' i j -> forall t, fine t -> stands t t' ->
       exists ts, split_terms tokenize [t] ts /\ DSs ts i j) /\
    (forall ts' i j, DRs ts' i j -> forall ts0, Forall fine ts0 -> Forall2 (stands) ts0 ts' ->
       exists ts, split_terms tokenize ts0 ts /\ DSs ts i j).
  Proof.
    assert (ONE : forall t i j, t_type t <> TTerminal -> DS t i j -> exists ts, split_terms tokenize [t] ts /\ DSs ts i j).
    { intros t i j Ht D. exists [t]. split; [apply sp_other; [exact Ht|constructor]|]. econstructor; [exact D|constructor]. }
    apply derives_mutind.
    - intros t' i tok E _ _ _ t _ [(_ & x & -> & _)|(Hn & ->)]; [discriminate|congruence].
    - intros t' i j ts' E Ha D IH _ t Hf [(Et & x & -> & Hx)|(Hn & ->)].
      + cbn [t_value] in Ha. apply Hx in Ha. destruct Ha as (tk & Ek & ->).
        exists (token_terms (t_meta t) tk ++ []). split; [apply sp_text; auto; constructor|].
        rewrite app_nil_r. eapply terminals_any; [apply token_terms_terminal|exact D].
      + destruct (old_alt_back _ _ (Hf (or_introl E)) Ha) as [(ts0 & Ha0 & HF & Hfs)|(Ha0 & Hw)].
        * destruct (IH ts0 Hfs HF) as (ts & Hs & Ds).
          apply ONE; [exact Hn|]. eapply d_rule; [exact E|apply Ha0; exact Hs|exact Ds|exact I].
        * apply ONE; [exact Hn|]. eapply d_rule; [exact E|exact Ha0|eapply terminals_any; [exact Hw|exact D]|exact I].
    - intros t' i j E Hij Hc _ t _ [(_ & x & -> & _)|(Hn & ->)]; [discriminate|]. apply ONE; [exact Hn|]. apply d_any; auto.
    - intros t' i j n E Hc D IH _ t Hf [(_ & x & -> & _)|(Hn & ->)]; [discriminate|].
      apply ONE; [exact Hn|]. eapply d_list; [exact E|exact Hc| |exact I].
      destruct (IH (repeat (nonterm (t_value t)) n)) as (ts & Hs & Ds).
      + apply repeat_fine. apply Hf. auto.
      + apply repeat_replaced.
      + rewrite (split_plain _ _ (repeat_plain _ _) Hs) in Ds. exact Ds.
    - intros i ts0 _ HF. inversion HF; subst. exists []. split; constructor.
    - intros t' ts' i j k D IH Ds IHs ts0 Hf HF. inversion HF as [|t ? ts ? Hr HFs]; subst. inversion Hf; subst.
      destruct (IH t H1 Hr) as (a & Sa & Da). destruct (IHs ts H2 HFs) as (b & Sb & Db).
      exists (a ++ b). split; [|apply derives_seq_app; exists j; auto].
      inversion Sa as [|t1 ts1 tk ts2 Et Ek S1|t1 ts1 ts2 Et S1]; subst.
      + inversion S1; subst. rewrite app_nil_r. apply sp_text; assumption.
      + inversion S1; subst. apply sp_other; assumption.
  Qed.

  (** a sequence of constituents, each either a matching terminal or derived in the refined grammar *)
  Inductive chain : list term -> nat -> nat -> Prop :=
  | ch_nil i : chain [] i i
  | ch_cons t ts i j k :
      (t_type t = TTerminal -> DR t i j) -> (t_type t <> TTerminal -> fine t -> DR t i j) -> chain ts j k ->
      chain (t :: ts) i k.
  Lemma chain_app a b i k : chain (a ++ b) i k -> exists j, chain a i j /\ chain b j k.
  Proof.
    revert i. induction a as [|t a IH]; intros i H; cbn [app] in H.
    - exists i. split; [constructor|exact H].
    - inversion H; subst. destruct (IH _ H6) as (j' & A & B). exists j'. split; [econstructor; eauto|exact B].
  Qed.
  Lemma chain_terminals ts i j : Forall (fun t => t_type t = TTerminal) ts -> chain ts i j -> DRs ts i j.
  Proof.
    intros H. revert i. induction H; intros i C; inversion C; subst; [constructor|]. econstructor; eauto.
  Qed.
  Lemma chain_fine ts i j : Forall (fun t => t_type t <> TTerminal) ts -> Forall fine ts -> chain ts i j -> DRs ts i j.
  Proof.
    intros H. revert i. induction H; intros i Hf C; inversion C; subst; inversion Hf; subst; [constructor|].
    econstructor; eauto.
  Qed.
  Lemma chain_replaced ts0 ts : split_terms tokenize ts0 ts -> forall ts' i k,
    Forall fine ts0 -> Forall2 (stands) ts0 ts' -> chain ts i k -> DRs ts' i k.
  Proof.
    induction 1 as [|t ts0 tk ts Et Ek _ IH|t ts0 ts Et _ IH]; intros ts' i k Hf HF C; inversion HF; subst.
    - inversion C; subst. constructor.
    - inversion Hf; subst. apply chain_app in C. destruct C as (j & C1 & C2).
      econstructor; [|eapply IH; eassumption]. destruct H1 as [(_ & x & -> & Hx)|[Hc _]]; [|congruence].
      eapply d_rule with (ts := token_terms (t_meta t) tk); [reflexivity| |apply chain_terminals; [apply token_terms_terminal|exact C1]|exact I].
      cbn [t_value]. apply Hx. exists tk. auto.
    - inversion Hf; subst. inversion C; subst. destruct H1 as [[Hc _]|[_ ->]]; [congruence|].
      econstructor; [|eapply IH; eassumption]. auto.
  Qed.
  Lemma split_to_refined :
    (forall t i j, DS t i j -> (t_type t = TTerminal -> DR t i j) /\ (t_type t <> TTerminal -> fine t -> DR t i j)) /\
    (forall ts i j, DSs ts i j -> chain ts i j).
  Proof.
    apply derives_mutind.
    - intros t i tok E Hk Ha _. split; [intros _; eapply d_terminal; eauto|congruence].
    - intros t i j ts E Ha D C _. split; [congruence|]. intros _ Hf.
      destruct (old_alt _ _ Ha) as [(ts0 & ts' & Hs & Ha' & HF & Hfs)|(Ha' & Hw)].
      + eapply d_rule; [exact E|exact Ha'| |exact I]. eapply chain_replaced; eassumption.
      + eapply d_rule; [exact E|exact Ha'|apply chain_terminals; [exact Hw|exact C]|exact I].
    - intros t i j E Hij Hc _. split; [congruence|]. intros _ _. apply d_any; auto.
    - intros t i j n E Hc D C _. split; [congruence|]. intros _ Hf. eapply d_list; [exact E|exact Hc| |exact I].
      apply chain_fine; [apply repeat_plain|apply repeat_fine; apply Hf; auto|exact C].
    - constructor.
    - intros t ts i j k D [IH1 IH2] Ds C. econstructor; eauto.
  Qed.

  Lemma stands_language x i j : ~ gen x ->
    (DR (nonterm x) i j <-> DS (nonterm x) i j).
  Proof.
    intros Hx.
    assert (Hf : fine (nonterm x)) by (intros _; exact Hx).
    split; intros D.
    - destruct (proj1 refined_to_split _ _ _ D (nonterm x) Hf) as (ts & Hs & Ds).
      { right. split; [discriminate|reflexivity]. }
      assert (E : ts = [nonterm x]) by (apply split_plain; [repeat constructor; discriminate|exact Hs]).
      subst ts. inversion Ds as [|t0 ts0 i0 j0 k0 D0 Ds0]; subst. inversion Ds0; subst. exact D0.
    - apply (proj1 split_to_refined _ _ _ D); [discriminate|exact Hf].
  Qed.
End Language.

Section Refined.
  Variable tokenize : string -> res (list token).
  Variable hash : rulebody -> N.
  Variable tmatch : term -> option token -> bool.
  Variable toks : list token.
  Variable L : list refined.
  Local Notation gs := (map rd_before L).
  Local Notation gs' := (map rd_after L).
  Hypothesis HR : forall p, In p L -> refined_by tokenize hash (rd_table p) (rd_before p) (rd_after p).
  Hypothesis HC : compatible L.
  Hypothesis HU : uniform_flags gs.
  Hypothesis HN : forall t, occurs gs t -> t_type t = TNonterminal \/ t_type t = TList -> ~ generated L (t_value t).

  Lemma occurs_part p v m : In p L -> terminal_occurs (rd_before p) v m ->
    exists t, occurs gs t /\ t_type t = TTerminal /\ t_value t = v /\ t_meta t = m.
  Proof.
    intros Hp (t & (x & b & (g & r & h & [<-|[]] & H1 & H2) & H3) & H4). exists t. split; [|exact H4].
    exists x, b. split; [|exact H3]. exists (rd_before p), r, h. split; [apply in_map; exact Hp|auto].
  Qed.
  Lemma new_alt p v x t ts : In p L -> In (v, x) (rd_table p) -> occurs gs t -> t_type t = TTerminal -> t_value t = v ->
    has_alt gs' x ts <-> exists tk, tokenize v = Ret tk /\ ts = token_terms (t_meta t) tk.
  Proof.
    intros Hp Hx Ho Et Ev. destruct HC as [HC1 HC2].
    assert (G : generated L x) by (exists p; split; [exact Hp|apply in_map_iff; exists (v, x); auto]).
    assert (K : forall q v', In q L -> In (v', x) (rd_table q) -> exists tk, tokenize v = Ret tk /\
                let b := mkRb (token_terms (t_meta t) tk) None in lookup (rd_after q) x = Some (mkRule x [(hash b, b)])).
    { intros q v' Hq Hx'. rewrite (HC2 p q x v v' Hp Hq Hx Hx') in *.
      destruct (HR q Hq) as (_ & _ & _ & _ & _ & R6 & _).
      destruct (R6 v' x Hx') as (tk & m' & E1 & Ho' & Lk). exists tk. split; [exact E1|].
      destruct (occurs_part q v' m' Hq Ho') as (t' & O1 & O2 & O3 & O4).
      rewrite (HU t t' Ho O1 Et O2 ltac:(congruence)), O4. exact Lk. }
    split.
    - intros (b & (g & r & h & Hg & L' & Hb) & Eb). apply in_map_iff in Hg. destruct Hg as (q & <- & Hq).
      destruct (in_dec string_dec x (map snd (rd_table q))) as [Hi|Hi].
      + apply in_map_iff in Hi. destruct Hi as ((v', x') & Ex & Hi). cbn [snd] in Ex. subst x'.
        destruct (K q v' Hq Hi) as (tk & Ek & Lk). cbv zeta in Lk. rewrite Lk in L'. inversion L'; subst r.
        cbn [r_body] in Hb. destruct Hb as [Hb|[]]. inversion Hb; subst b. exists tk. auto.
      + destruct (HR q Hq) as (_ & _ & _ & _ & _ & _ & R7). rewrite (R7 x (HC1 x q G Hq) Hi) in L'. discriminate.
    - intros (tk' & E2 & ->). destruct (K p v Hp Hx) as (tk & Ek & Lk). rewrite Ek in E2. inversion E2; subst tk'.
      exists (mkRb (token_terms (t_meta t) tk) None). split; [|reflexivity].
      exists (rd_after p). eexists. eexists. split; [apply in_map; exact Hp|]. split; [exact Lk|]. left. reflexivity.
  Qed.
  (** further rules of terminals, with other names than the generated ones *)
  Variable loc : string -> list term -> Prop.
  Hypothesis HL : forall x ts, loc x ts -> ~ generated L x /\ words ts.
  Local Notation alt' := (fun x ts => has_alt gs' x ts \/ loc x ts).
  Lemma replaced_stands p t t' : In p L -> occurs gs t -> replaced (rd_table p) t t' -> stands tokenize alt' t t'.
  Proof.
    intros Hp Ho [(Et & x & Hx & ->)|H]; [left|right; exact H]. split; [exact Et|]. exists x. split; [reflexivity|].
    intros ts. rewrite <- (new_alt p (t_value t) x t ts Hp Hx Ho Et eq_refl). split; [|auto]. intros [H|H]; [exact H|].
    destruct (proj1 (HL x ts H)). exists p. split; [exact Hp|]. apply in_map_iff. exists (t_value t, x). auto.
  Qed.
  Lemma body_stands p b b' : In p L -> (forall t, In t (rb_terms b) -> occurs gs t) -> replaced_body (rd_table p) b b' ->
    Forall2 (stands tokenize alt') (rb_terms b) (rb_terms b') /\ Forall (fine (generated L)) (rb_terms b).
  Proof.
    intros Hp Ho [_ HF]. split.
    - induction HF; constructor; [eapply replaced_stands; eauto; apply Ho; left; reflexivity|].
      apply IHHF. intros t Ht. apply Ho. right. exact Ht.
    - apply Forall_forall. intros t Ht. intros E. apply HN; auto.
  Qed.

  Theorem refine_language_with x i j : ~ generated L x ->
    (derives alt' (accepts_by tmatch) toks own_range (fun _ _ => True) (nonterm x) i j <->
     derives (fun x ts => split_alt tokenize gs x ts \/ loc x ts) (accepts_by tmatch) toks own_range (fun _ _ => True) (nonterm x) i j).
  Proof.
    apply stands_language with (tokenize := tokenize).
    - intros y ts' Hy [(b' & (g & r' & h & Hg & L' & Hb) & <-)|H]; [left|right; destruct (HL _ _ H); auto].
      apply in_map_iff in Hg. destruct Hg as (p & <- & Hp).
      destruct (HR p Hp) as (_ & _ & _ & _ & R5 & _ & R7).
      destruct (lookup (rd_before p) y) as [r|] eqn:Ly.
      + destruct (R5 y r Ly) as (r2 & L2 & _ & _ & B). rewrite L' in L2. inversion L2; subst r2.
        destruct (B h b' Hb) as (b & Hb2 & HF).
        assert (HB : has_body gs y b) by (exists (rd_before p), r, h; split; [apply in_map; exact Hp|auto]).
        exists (rb_terms b). split; [intros ts Hs; left; exists (rb_terms b); split; [exists b; auto|exact Hs]|].
        apply (body_stands p b b' Hp); [|exact HF]. intros t Ht. exists y, b. auto.
      + rewrite (R7 y Ly) in L'; [discriminate|]. intros Hi. apply Hy. exists p. auto.
    - intros y ts [(ts0 & (b & HB & <-) & Hs)|H]; [left|right; destruct (HL _ _ H); auto].
      pose proof HB as (g & r & h & Hg & Ly & Hb). apply in_map_iff in Hg. destruct Hg as (p & <- & Hp).
      destruct (HR p Hp) as (_ & _ & _ & _ & R5 & _). destruct (R5 y r Ly) as (r' & L' & _ & A & _).
      destruct (A h b Hb) as (b' & Hb' & HF). exists (rb_terms b), (rb_terms b'). split; [exact Hs|]. split.
      + left. exists b'. split; [|reflexivity]. exists (rd_after p), r', h. split; [apply in_map; exact Hp|auto].
      + apply (body_stands p b b' Hp); [|exact HF]. intros t Ht. exists y, b. auto.
  Qed.
End Refined.
Lemma derives_alt alt alt' acc tk co so : (forall x ts, alt x ts <-> alt' x ts) ->
  forall t i j, derives alt acc tk co so t i j <-> derives alt' acc tk co so t i j.
Proof.
  intros H.
  assert (K : forall a a' : string -> list term -> Prop, (forall x ts, a x ts -> a' x ts) ->
    (forall t i j, derives a acc tk co so t i j -> derives a' acc tk co so t i j) /\
    (forall ts i j, derives_seq a acc tk co so ts i j -> derives_seq a' acc tk co so ts i j)).
  { intros a a' Ha. apply derives_mutind; intros.
    - eapply d_terminal; eauto.
    - eapply d_rule; eauto.
    - apply d_any; auto.
    - eapply d_list; eauto.
    - constructor.
    - econstructor; eauto. }
  intros t i j. split; apply K; intros x ts Hx; apply H; exact Hx.
Qed.
Theorem refine_language tokenize hash tmatch toks L :
  (forall p, In p L -> refined_by tokenize hash (rd_table p) (rd_before p) (rd_after p)) ->
  compatible L -> uniform_flags (map rd_before L) ->
  (forall t, occurs (map rd_before L) t -> t_type t = TNonterminal \/ t_type t = TList -> ~ generated L (t_value t)) ->
  forall x i j, ~ generated L x ->
  (Derives tmatch (map rd_after L) toks (nonterm x) i j <-> DerivesSplit tokenize tmatch (map rd_before L) toks (nonterm x) i j).
Proof.
  intros HR HC HU HN x i j Hx. unfold Derives, DerivesSplit.
  rewrite (derives_alt (has_alt (map rd_after L)) (fun x ts => has_alt (map rd_after L) x ts \/ False)) by tauto.
  rewrite (derives_alt (split_alt tokenize (map rd_before L)) (fun x ts => split_alt tokenize (map rd_before L) x ts \/ False)) by tauto.
  apply (refine_language_with tokenize hash tmatch toks L HR HC HU HN (fun _ _ => False)); [tauto|exact Hx].
Qed.

Lemma dangling_free L : (forall p x, In p L -> In x (map snd (rd_table p)) -> String.prefix "g_t" x = true) ->
  compatible L -> no_dangling "g_t" (map rd_before L) ->
  forall t, occurs (map rd_before L) t -> t_type t = TNonterminal \/ t_type t = TList -> ~ generated L (t_value t).
Proof.
  intros HP [HC _] HD t Ho Et (p & Hp & Hx).
  destruct (HD t Ho Et (HP p _ Hp Hx)) as (g & Hg & Lg). apply in_map_iff in Hg. destruct Hg as (q & <- & Hq).
  apply Lg. apply HC; [exists p; auto|exact Hq].
Qed.
Lemma compatible_one tokenize hash T r r' : refined_by tokenize hash T r r' -> compatible [mkRefined T r r'].
Proof.
  intros (R1 & R2 & _ & R4 & _). split.
  - intros x p (q & [<-|[]] & Hx) [<-|[]]. apply R4. exact Hx.
  - intros p q x v v' [<-|[]] [<-|[]] H H'. cbn [rd_table] in *. clear - R2 H H'.
    induction T as [|(a, b) T IH]; [destruct H|]. cbn [map snd] in R2. inversion R2; subst.
    destruct H as [H|H], H' as [H'|H']; try congruence; auto.
    + inversion H; subst. destruct H2. apply in_map_iff. exists (v', x). auto.
    + inversion H'; subst. destruct H2. apply in_map_iff. exists (v, x). auto.
Qed.
