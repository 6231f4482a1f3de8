(** The trees of the texts b a ... a. *)
From Coq Require Import FinFun Permutation.
From Verif Require Import Base ModelTypes ModelText ModelEarley ModelTrees ModelApi ModelMatch SpecTypes SpecGrammar SpecTree SpecTreeOrder SpecApi
  ProofMain ProofTreeMissing ProofApi ProofApiMain ProofExtract ProofTreeOrder ProofWitness Examples ExamplesTree SpecMany.
Local Open Scope list_scope.

Lemma many_ok : well_formed g_many ["s"]%string /\ separated g_many /\ typed_args g_many /\ uniform_ranges g_many /\ any_named g_many.
Proof.
  split; [apply well_formed_b_ok; reflexivity|]. split; [apply separated_b_ok; reflexivity|]. split; [apply nofunc_b_ok; reflexivity|].
  split; [apply uniform_b_ok; reflexivity|apply anynamed_b_ok; reflexivity].
Qed.

Section Trees.
  Variable tmatch : term -> option token -> bool.
  Hypothesis Hmatch : forall s x, tmatch (many_t s) (Some x) = true <-> s = tok_text x.
  Variable toks : list token.
  Variable N : nat.
  Hypothesis Htoks : map tok_text toks = many_words N.
  Notation T := (tree_of g_many (accepts_by tmatch) toks own_range).
  Notation TS := (trees_of g_many (accepts_by tmatch) toks own_range).

  Definition leaf (w : string) (i : nat) : ptree := PRule (many_w w) (many_body [many_t w]) i (S i) [PTok (many_t w) i].
  Definition step1 (n : nat) (t : ptree) : ptree :=
    PRule "s" (many_body [many_n "u"; many_n (many_w "a")]) 0 (S (S n)) [PRule "u" (many_body [many_n "s"]) 0 (S n) [t]; leaf "a" (S n)].
  Definition step2 (n : nat) (t : ptree) : ptree :=
    PRule "s" (many_body [many_n "u"; many_n (many_w "a")]) 0 (S (S n))
      [PRule "u" (many_body [many_n "v"]) 0 (S n) [PRule "v" (many_body [many_n "s"]) 0 (S n) [t]]; leaf "a" (S n)].
  Fixpoint st (n : nat) : list ptree :=
    match n with
    | O => [PRule "s" (many_body [many_n (many_w "b")]) 0 1 [leaf "b" 0]]
    | S n' => map (step1 n') (st n') ++ map (step2 n') (st n')
    end.
  Lemma st_length n : length (st n) = 2 ^ n.
  Proof. induction n as [|n IH]; [reflexivity|]. cbn [st]. rewrite app_length, !map_length, IH. cbn. lia. Qed.
  Lemma nodup_app {A} (l l' : list A) : NoDup l -> NoDup l' -> (forall x, In x l -> ~ In x l') -> NoDup (l ++ l').
  Proof.
    intros H H' D. induction H as [|x l Hx H IH]; [exact H'|]. cbn. constructor.
    - intros K. apply in_app_or in K as [K|K]; [contradiction|]. apply (D x); [left; reflexivity|exact K].
    - apply IH. intros y Hy. apply D. right. exact Hy.
  Qed.
  Lemma st_nodup n : NoDup (st n).
  Proof.
    induction n as [|n IH]; [repeat constructor; intros []|]. cbn [st]. apply nodup_app.
    - apply Injective_map_NoDup; [|exact IH]. intros x y E. injection E. auto.
    - apply Injective_map_NoDup; [|exact IH]. intros x y E. injection E. auto.
    - intros q H H'. apply in_map_iff in H as (t & <- & _). apply in_map_iff in H' as (t' & E & _). discriminate.
  Qed.
  Lemma st_inv n t : In t (st (S n)) -> exists u, In u (st n) /\ (t = step1 n u \/ t = step2 n u).
  Proof. cbn [st]. intros H. apply in_app_or in H as [H|H]; apply in_map_iff in H as (u & <- & Hu); eauto. Qed.

  Lemma rule_inv x i j q : T (nonterm x) i j q ->
    exists b kids, q = PRule x b i j kids /\ In b (bodies_of g_many x) /\ TS (rb_terms b) i j kids.
  Proof.
    intros H. inversion H as [|? ? ? E|? ? ? b kids E Hb Hk|]; subst; try discriminate.
    apply has_body_bodies in Hb. eauto.
  Qed.
  Lemma one_inv t i j qs : TS [t] i j qs -> exists q, qs = [q] /\ T t i j q.
  Proof. intros H. inversion H as [|? ? ? ? ? q ps H1 H2]; subst. inversion H2; subst. eauto. Qed.
  Lemma two_inv t u i j qs : TS [t; u] i j qs -> exists q q' m, qs = [q; q'] /\ T t i m q /\ T u m j q'.
  Proof. intros H. inversion H as [|? ? ? m ? q ps H1 H2]; subst. apply one_inv in H2 as (q' & -> & H2). eauto 6. Qed.
  Lemma tok_inv w i j q : T (many_t w) i j q -> j = S i /\ q = PTok (many_t w) i /\ nth_error (map tok_text toks) i = Some w.
  Proof.
    intros H. inversion H as [? ? tok ? Hn Ha| | |]; subst; try discriminate. split; [reflexivity|]. split; [reflexivity|].
    rewrite nth_error_map, Hn. cbn. apply Hmatch in Ha. congruence.
  Qed.
  Lemma leaf_inv w i j q : In w ["a"; "b"]%string -> T (nonterm (many_w w)) i j q -> j = S i /\ q = leaf w i /\ nth_error (map tok_text toks) i = Some w.
  Proof.
    intros Hw H. apply rule_inv in H as (b & kids & -> & Hb & Hk).
    assert (b = many_body [many_t w]) as -> by (destruct Hw as [<-|[<-|[]]]; vm_compute in Hb; destruct Hb as [<-|[]]; reflexivity).
    apply one_inv in Hk as (q & -> & Hq). apply tok_inv in Hq as (-> & -> & E). auto.
  Qed.
  Lemma leaf_make w i : In w ["a"; "b"]%string -> nth_error (map tok_text toks) i = Some w -> T (nonterm (many_w w)) i (S i) (leaf w i).
  Proof.
    intros Hw H. apply (to_rule _ _ _ _ (nonterm (many_w w))); [reflexivity|apply has_body_bodies; destruct Hw as [<-|[<-|[]]]; vm_compute; tauto|].
    eapply tos_cons; [|apply tos_nil]. rewrite nth_error_map in H. destruct (nth_error toks i) as [x|] eqn:E; [|discriminate].
    eapply to_tok; [reflexivity|exact E|]. apply Hmatch. injection H as <-. reflexivity.
  Qed.
  Lemma s_inv j : forall q, T (nonterm "s") 0 j q -> exists n, j = S n /\ n <= N /\ In q (st n).
  Proof.
    induction j as [j IH] using lt_wf_ind. intros q H. apply rule_inv in H as (b & kids & -> & Hb & Hk).
    vm_compute in Hb. destruct Hb as [<-|[<-|[]]].
    - apply two_inv in Hk as (u & a & m & -> & Hu & Ha). apply leaf_inv in Ha as (-> & -> & E); [|cbn; auto].
      assert (K : exists t, T (nonterm "s") 0 m t /\ (u = PRule "u" (many_body [many_n "s"]) 0 m [t]
        \/ u = PRule "u" (many_body [many_n "v"]) 0 m [PRule "v" (many_body [many_n "s"]) 0 m [t]])).
      { apply rule_inv in Hu as (b & kids & -> & Hb & Hk). vm_compute in Hb. destruct Hb as [<-|[<-|[]]].
        - apply one_inv in Hk as (t & -> & Ht). exists t. split; [exact Ht|left; reflexivity].
        - apply one_inv in Hk as (v & -> & Hv). apply rule_inv in Hv as (b & kids & -> & Hb & Hk). vm_compute in Hb.
          destruct Hb as [<-|[]]. apply one_inv in Hk as (t & -> & Ht). exists t. split; [exact Ht|right; reflexivity]. }
      destruct K as (t & Ht & K). destruct (IH m (Nat.lt_succ_diag_r m) t Ht) as (n & -> & Hn & Hi).
      exists (S n). split; [reflexivity|]. split.
      + apply nth_error_Some_lt in E || (assert (S n < length (map tok_text toks)) by (apply nth_error_Some; congruence)).
        rewrite Htoks in *. unfold many_words in *. cbn [length] in *. rewrite repeat_length in *. lia.
      + cbn [st]. apply in_or_app. destruct K as [-> | ->]; [left; apply (in_map (step1 n)), Hi|right; apply (in_map (step2 n)), Hi].
    - apply one_inv in Hk as (q & -> & Hq). apply leaf_inv in Hq as (-> & -> & _); [|cbn; auto].
      exists 0. split; [reflexivity|]. split; [lia|]. left. reflexivity.
  Qed.
  Lemma word_at n : n < N -> nth_error (map tok_text toks) (S n) = Some "a"%string.
  Proof using Htoks. intros H. rewrite Htoks. cbn. apply nth_error_repeat. exact H. Qed.
  Lemma s_make n : n <= N -> forall q, In q (st n) -> T (nonterm "s") 0 (S n) q.
  Proof.
    induction n as [|n IH]; intros Hn q Hq.
    - destruct Hq as [<-|[]]. apply (to_rule _ _ _ _ (nonterm "s")); [reflexivity|apply has_body_bodies; vm_compute; tauto|].
      eapply tos_cons; [|apply tos_nil]. apply (leaf_make "b"); [cbn; auto|]. rewrite Htoks. reflexivity.
    - apply st_inv in Hq as (u & Hu & K). apply IH in Hu; [|lia].
      assert (Ha : T (nonterm (many_w "a")) (S n) (S (S n)) (leaf "a" (S n))) by (apply leaf_make; [cbn; auto|apply word_at; lia]).
      destruct K as [-> | ->]; (apply (to_rule _ _ _ _ (nonterm "s")); [reflexivity|apply has_body_bodies; vm_compute; tauto|]);
        (eapply tos_cons; [|eapply tos_cons; [exact Ha|apply tos_nil]]).
      + apply (to_rule _ _ _ _ (nonterm "u")); [reflexivity|apply has_body_bodies; vm_compute; tauto|]. eapply tos_cons; [exact Hu|apply tos_nil].
      + apply (to_rule _ _ _ _ (nonterm "u")); [reflexivity|apply has_body_bodies; vm_compute; tauto|]. eapply tos_cons; [|apply tos_nil].
        apply (to_rule _ _ _ _ (nonterm "v")); [reflexivity|apply has_body_bodies; vm_compute; tauto|]. eapply tos_cons; [exact Hu|apply tos_nil].
  Qed.
  Lemma st_root n q q' : In q (st n) -> In q' (st n) -> same_root q q'.
  Proof.
    destruct n as [|n]; [intros [<-|[]] [<-|[]]; cbn; auto|].
    intros H H'. apply st_inv in H as (u & _ & [-> | ->]); apply st_inv in H' as (u' & _ & [-> | ->]); cbn; auto.
  Qed.
  Notation F := (forced g_many (accepts_by tmatch) toks own_range).
  Definition fine (m : ptree) : Prop := p_start m < p_end m /\ F m.
  Ltac kids E E' := symmetry in E, E'; first [apply snoc_one in E, E'|apply snoc_two in E, E']; subst.
  Lemma leaf_fine w i m : In w ["a"; "b"]%string -> subtree (leaf w i) m -> fine m.
  Proof.
    intros Hw H. inversion H as [|? k ? Hk Hs]; subst.
    - split; [cbn; lia|]. intros n' l k l' k' Hr Hm E E'. destruct n'; try contradiction. destruct Hr as (<- & <- & <- & <-).
      cbn in Hm. apply one_inv in Hm as (q & -> & Hq). apply tok_inv in Hq as (_ & -> & _). cbn in E, E'. kids E E'. cbn. auto.
    - destruct Hk as [<-|[]]. inversion Hs as [|? k ? Hk _]; subst; [|destruct Hk]. split; [cbn; lia|].
      intros n' l k l' k' _ _ E. destruct l; discriminate.
  Qed.
  Lemma st_fine n : forall q, n <= N -> In q (st n) -> forall m, subtree q m -> fine m.
  Proof.
    induction n as [|n IH]; intros q Hn Hq m Hm.
    - destruct Hq as [<-|[]]. inversion Hm as [|? k ? Hk Hs]; subst.
      + split; [cbn; lia|]. intros n' l k l' k' Hr Hw E E'. destruct n'; try contradiction. destruct Hr as (<- & <- & <- & <-).
        cbn in Hw. apply one_inv in Hw as (q1 & -> & Hq). apply leaf_inv in Hq as (_ & -> & _); [|cbn; auto]. cbn in E, E'. kids E E'. cbn. auto.
      + destruct Hk as [<-|[]]. apply (leaf_fine "b" 0); [cbn; auto|exact Hs].
    - apply st_inv in Hq as (u & Hu & K).
      assert (top : forall k0, fine (PRule "s" (many_body [many_n "u"; many_n (many_w "a")]) 0 (S (S n)) [k0; leaf "a" (S n)])).
      { intros k0. split; [cbn; lia|]. intros n' l k l' k' Hr Hw E E'. destruct n'; try contradiction. destruct Hr as (<- & <- & <- & <-).
        cbn in Hw. apply two_inv in Hw as (q1 & q' & i & -> & _ & Hq). apply leaf_inv in Hq as (Ej & -> & _); [|cbn; auto].
        injection Ej as <-. cbn in E, E'. kids E E'. cbn. auto. }
      assert (one : forall x, x = "u"%string \/ x = "v"%string -> fine (PRule x (many_body [many_n "s"]) 0 (S n) [u])).
      { intros x Hx. split; [cbn; lia|]. intros n' l k l' k' Hr Hw E E'. destruct n'; try contradiction. destruct Hr as (<- & <- & <- & <-).
        cbn in Hw. apply one_inv in Hw as (q1 & -> & Hq). apply s_inv in Hq as (n2 & Ej & _ & Hi). injection Ej as <-. cbn in E, E'. kids E E'.
        eapply st_root; eassumption. }
      assert (deep : fine (PRule "u" (many_body [many_n "v"]) 0 (S n) [PRule "v" (many_body [many_n "s"]) 0 (S n) [u]])).
      { split; [cbn; lia|]. intros n' l k l' k' Hr Hw E E'. destruct n'; try contradiction. destruct Hr as (<- & <- & <- & <-).
        cbn in Hw. apply one_inv in Hw as (q1 & -> & Hq). apply rule_inv in Hq as (b & ks & -> & Hb & _). vm_compute in Hb.
        destruct Hb as [<-|[]]. cbn in E, E'. kids E E'. cbn. auto. }
      destruct K as [-> | ->]; (inversion Hm as [|? k ? Hk Hs]; subst; [apply top|]); destruct Hk as [<-|[<-|[]]];
        try (apply (leaf_fine "a" (S n)); [cbn; auto|exact Hs]).
      + inversion Hs as [|? k ? Hk Hs']; subst; [apply one; auto|]. destruct Hk as [<-|[]]. apply (IH u); [lia|exact Hu|exact Hs'].
      + inversion Hs as [|? k ? Hk Hs']; subst; [apply deep|]. destruct Hk as [<-|[]].
        inversion Hs' as [|? k ? Hk Hs2]; subst; [apply one; auto|]. destruct Hk as [<-|[]]. apply (IH u); [lia|exact Hu|exact Hs2].
  Qed.
  Lemma root_fine q : In q (st N) -> forall m, subtree (PRule GammaRule (gamma_body "s") 0 (S N) [q]) m -> fine m.
  Proof.
    intros Hq m Hm. inversion Hm as [|? k ? Hk Hs]; subst.
    - split; [cbn; lia|]. intros n' l k l' k' Hr Hw E E'. destruct n'; try contradiction. destruct Hr as (<- & <- & <- & <-).
      cbn in Hw. apply one_inv in Hw as (q' & -> & Hq'). apply s_inv in Hq' as (n2 & Ej & _ & Hi). injection Ej as <-. cbn in E, E'. kids E E'.
      eapply st_root; eassumption.
    - destruct Hk as [<-|[]]. eapply st_fine; [|exact Hq|exact Hs]. lia.
  Qed.

  (** ** The parser lists them all *)
  Lemma alt_in x ts : In (many_body ts) (bodies_of g_many x) -> has_alt g_many x ts.
  Proof using. intros H. exists (many_body ts). split; [apply has_body_bodies, H|reflexivity]. Qed.
  Lemma leaf_match w i : In w ["a"; "b"]%string -> nth_error (map tok_text toks) i = Some w -> MatchNonempty tmatch g_many toks (many_w w) i (S i).
  Proof using Hmatch.
    intros Hw H. apply (d_rule _ _ _ _ _ (nonterm (many_w w)) _ _ [many_t w]); [reflexivity|apply alt_in; destruct Hw as [<-|[<-|[]]]; vm_compute; tauto| |lia].
    eapply ds_cons; [|apply ds_nil]. rewrite nth_error_map in H. destruct (nth_error toks i) as [x|] eqn:E; [|discriminate].
    eapply d_terminal; [reflexivity|exact E| |lia]. apply Hmatch. injection H as <-. reflexivity.
  Qed.
  Lemma s_match n : n <= N -> MatchNonempty tmatch g_many toks "s" 0 (S n).
  Proof using Hmatch Htoks.
    induction n as [|n IH]; intros Hn.
    - apply (d_rule _ _ _ _ _ (nonterm "s") _ _ [many_n (many_w "b")]); [reflexivity|apply alt_in; vm_compute; tauto| |lia].
      eapply ds_cons; [|apply ds_nil]. apply leaf_match; [cbn; auto|]. rewrite Htoks. reflexivity.
    - apply (d_rule _ _ _ _ _ (nonterm "s") _ _ [many_n "u"; many_n (many_w "a")]); [reflexivity|apply alt_in; vm_compute; tauto| |lia].
      apply (ds_cons _ _ _ _ _ _ _ _ (S n)); [|eapply ds_cons; [|apply ds_nil]].
      + apply (d_rule _ _ _ _ _ (nonterm "u") _ _ [many_n "s"]); [reflexivity|apply alt_in; vm_compute; tauto| |lia].
        eapply ds_cons; [apply IH; lia|apply ds_nil].
      + apply leaf_match; [cbn; auto|]. apply word_at. lia.
  Qed.
  Lemma many_trees ords text fuel fuel' p outs : is_order (ords 0) ->
    earley_parse_n tmatch ords g_many text fuel 0 true toks ["s"]%string = Ret p ->
    extract_finals fuel' (p_columns p) (p_finals p) = Ret outs ->
    length outs = 2 ^ N /\ NoDup (map erase outs)
    /\ forall q, In q (map erase outs) <-> exists t, q = PRule GammaRule (gamma_body "s") 0 (S N) [t] /\ T (nonterm "s") 0 (S N) t.
  Proof using Hmatch Htoks.
    intros Ho E HX. destruct many_ok as (Hwf & Hsep & Hty & Hu & Hany).
    destruct (longest_match _ _ _ _ _ _ _ _ _ _ Ho E eq_refl Hwf "s" (S N) (or_introl eq_refl) (s_match N (le_n N)))
      as (S' & k & (ref & s & Hr & Hs & Ht & H0 & Hk) & Hle).
    destruct (finals_anchored _ _ _ _ _ _ _ _ _ _ Ho E ref Hwf Hr) as (s2 & S2 & Hs2 & Ht2 & HS & _ & Hlen & _).
    rewrite Hs in Hs2. injection Hs2 as <-. rewrite Ht in Ht2. injection Ht2 as <-. destruct HS as [<-|[]].
    assert (Hend : s_end s = S N).
    { assert (length toks = S N). { rewrite <- (map_length tok_text), Htoks. cbn. rewrite repeat_length. reflexivity. } lia. }
    assert (Hf : p_finals p = [ref]).
    { destruct (one_longest _ _ _ _ _ _ _ _ _ _ Ho E eq_refl) as [L _]. destruct (p_finals p) as [|x [|y l]]; cbn in L; try lia; [destruct Hr|].
      destruct Hr as [->|[]]. reflexivity. }
    rewrite Hf in HX. cbn in HX. destruct (get_trees (p_columns p) fuel' ref) as [ts| | |] eqn:Hg; try discriminate.
    cbn in HX. rewrite app_nil_r in HX. injection HX as <-.
    pose proof (trees_nodup_erased _ _ _ _ _ _ _ _ _ _ Ho E ref s fuel' ts Hty Hu Hs Hg) as Hnd.
    assert (HI : forall q, In q (map erase ts) <-> exists t, q = PRule GammaRule (gamma_body "s") 0 (S N) [t] /\ T (nonterm "s") 0 (S N) t).
    { intros q. split.
      - intros Hq. apply in_map_iff in Hq as (t & <- & Hin).
        destruct (trees_are_parse_trees _ _ _ _ _ _ _ _ _ _ Ho E Hwf Hsep ref fuel' ts Hu Hr Hg) as (s' & S' & E1 & E2 & F0).
        rewrite Hs in E1. injection E1 as <-. rewrite Ht in E2. injection E2 as <-.
        rewrite Forall_forall in F0. destruct (F0 t Hin) as (kid & Ek & Hkid). rewrite Hend in *. eauto.
      - intros (t & -> & Hq). pose proof Hq as Hq'. apply s_inv in Hq' as (n & En & _ & Hin). injection En as <-.
        pose proof (root_fine t Hin) as Hfine.
        pose proof (forced_tree tmatch ords g_many text fuel 0 true toks ["s"]%string p Ho E Hwf Hsep Hu Hany ref s "s" Hr Hs Ht Hty fuel' ts Hg t) as K.
        unfold gamma_tree in K. rewrite Hend in K. apply K; [exact Hq| |intros m Hm; apply Hfine, Hm].
        intros m Hm. apply Hfine. eapply sub_kid; [left; reflexivity|exact Hm]. }
    split; [|split; [exact Hnd|exact HI]].
    rewrite <- (map_length erase), <- st_length, <- (map_length (fun t => PRule GammaRule (gamma_body "s") 0 (S N) [t]) (st N)).
    apply Permutation_length, NoDup_Permutation; [exact Hnd| |].
    - apply Injective_map_NoDup; [|apply st_nodup]. intros x y Exy. injection Exy. auto.
    - intros q. rewrite HI, in_map_iff. split.
      + intros (t & -> & Hq). apply s_inv in Hq as (n & En & _ & Hin). injection En as <-. eauto.
      + intros (t & <- & Hin). exists t. split; [reflexivity|]. apply s_make; [lia|exact Hin].
  Qed.
  Lemma many_parse ords annotate local ctx text : orders ords -> process annotate local ctx text = Ret (toks, None) ->
    exists fuel0, forall fuel, fuel0 <= fuel -> exists outs,
      Parse tmatch ords g_many annotate local fuel ctx text ["s"]%string = Ret outs
      /\ length outs = 2 ^ N /\ NoDup (map (fun o => erase (snd o)) outs).
  Proof using Hmatch Htoks.
    intros Ho Hp. destruct many_ok as (Hwf & Hsep & Hty & Hu & Hany).
    destruct (parse_easy_terminates tmatch ords g_many annotate local ctx text ["s"]%string toks None Ho Hp Hwf Hsep Hty ltac:(discriminate)) as (r & m & Hm).
    exists m. intros fuel Hf. specialize (Hm fuel Hf). exists r. split; [exact Hm|]. clear Hf. unfold Parse in Hm.
    destruct (EarleyParse tmatch ords g_many annotate local fuel ctx text ["s"]%string) as [q| | |] eqn:E; try discriminate.
    cbn [Base.bind] in Hm. unfold EarleyParse in E. rewrite Hp in E. cbn [Base.bind with_local] in E. cbn in Hm.
    destruct (extract_finals fuel (p_columns q) (p_finals q)) as [ts| | |] eqn:HX; try discriminate. cbn in Hm. rewrite app_nil_r in Hm. injection Hm as <-.
    destruct (many_trees ords text fuel fuel q ts (Ho 0) E HX) as (L & D & _). rewrite map_length, map_map. auto.
  Qed.
End Trees.

Lemma match_many gtokens to_lower s x : terminal_match gtokens to_lower (many_t s) (Some x) = true <-> s = tok_text x.
Proof. cbn. rewrite String.eqb_eq. reflexivity. Qed.

Lemma many_call gtokens to_lower ords annotate local_grammar ctx text toks n :
  orders ords -> process annotate local_grammar ctx text = Ret (toks, None) -> map tok_text toks = many_words n ->
  exists fuel0, forall fuel, fuel0 <= fuel -> exists outs,
    Parse (terminal_match gtokens to_lower) ords g_many annotate local_grammar fuel ctx text ["s"]%string = Ret outs
    /\ length outs = 2 ^ n /\ NoDup (map (fun o => erase (snd o)) outs).
Proof. intros Ho Hp Ht. exact (many_parse _ (match_many gtokens to_lower) toks n Ht ords annotate local_grammar ctx text Ho Hp). Qed.

Lemma many_all gtokens to_lower ords text toks n fuel fuel' p outs :
  is_order (ords 0) -> map tok_text toks = many_words n ->
  earley_parse_n (terminal_match gtokens to_lower) ords g_many text fuel 0 true toks ["s"]%string = Ret p ->
  extract_finals fuel' (p_columns p) (p_finals p) = Ret outs ->
  length outs = 2 ^ n
  /\ forall q, In q (map erase outs) <-> exists t, q = PRule GammaRule (gamma_body "s") 0 (S n) [t]
       /\ tree_of g_many (accepts_by (terminal_match gtokens to_lower)) toks own_range (nonterm "s") 0 (S n) t.
Proof.
  intros Ho Ht E X. destruct (many_trees _ (match_many gtokens to_lower) toks n Ht ords text fuel fuel' p outs Ho E X) as (L & _ & H). auto.
Qed.
