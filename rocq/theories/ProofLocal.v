(** The local grammar. *)
From Coq Require Import Permutation.
From Verif Require Import Base ModelTypes ModelText ModelEarley ModelTrees ModelApi ModelReader ModelGrammar ModelLocal
  ModelMatch SpecTypes SpecGrammar SpecTree SpecApi SpecLocal ProofReaderMain ProofRefine ProofIndex.

Section Local.
  Variable hash : rulebody -> N.
  Variable find_all : string -> string -> option (list (nat * nat)).
  Variable span_text : document -> nat -> nat -> string.
  Variable regexps : list (string * string).
  Variable ord : nat -> list (string * entry) -> list (string * entry).
  Hypothesis Hord : forall i l, Permutation l (ord i l).

  (** the rules after adding the pairs of L *)
  Definition holds (rules : grammar_rules) (L : list (string * rulebody)) : Prop :=
    (forall x r, lookup rules x = Some r -> r_name r = x /\ r_body r <> [] /\ NoDup (map fst (r_body r)) /\
       forall h b, In (h, b) (r_body r) -> h = hash b /\ In (x, b) L) /\
    (forall x b, In (x, b) L -> exists r b', lookup rules x = Some r /\ In (hash b, b') (r_body r)).

  Lemma put_N_in {A} (m : list (N * A)) k a h b : NoDup (map fst m) ->
    (In (h, b) (put_N m k a) <-> (h = k /\ b = a) \/ (h <> k /\ In (h, b) m)).
  Proof.
    induction m as [|(k', a') m IH]; intros Hnd; cbn in *.
    - split; [intros [H|[]]; inversion H; auto | intros [(-> & ->)|(_ & [])]; auto].
    - inversion Hnd as [|? ? Hni Hnd']; subst. destruct (N.eqb_spec k' k) as [->|Hne]; cbn.
      + split.
        * intros [H|H]; [inversion H; auto|]. right. split; [|auto]. intros ->. apply Hni. apply in_map_iff. exists (k, b). auto.
        * intros [(-> & ->)|(Hn & [H|H])]; [auto | inversion H; congruence | auto].
      + rewrite IH by exact Hnd'. split.
        * intros [H|[(-> & ->)|(Hn & H)]]; [inversion H; subst; right; split; [congruence|auto] | auto | auto].
        * intros [(-> & ->)|(Hn & [H|H])]; [auto | left; exact H | auto].
  Qed.

  Lemma holds_add rules L x b : holds rules L -> holds (add_body hash rules x b) (L ++ [(x, b)]).
  Proof.
    intros (HS & HC). unfold add_body. destruct (lookup rules x) as [r|] eqn:E.
    - destruct (HS x r E) as (Hn & Hne & Hnd & Hb). split.
      + intros y r' Hy. rewrite lookup_put in Hy. destruct (String.eqb_spec x y) as [<-|Hxy].
        * inversion Hy; subst r'; cbn. split; [exact Hn|]. split; [|split; [apply put_N_nodup; exact Hnd|]].
          -- destruct (r_body r) as [|(k, c) l]; cbn; [discriminate|]. destruct (N.eqb k (hash b)); discriminate.
          -- intros h c Hc. apply put_N_in in Hc; [|exact Hnd]. destruct Hc as [(-> & ->)|(_ & Hc)].
             ++ split; [reflexivity|]. apply in_or_app. right. left. reflexivity.
             ++ destruct (Hb h c Hc) as (-> & Hin). split; [reflexivity|]. apply in_or_app. auto.
        * destruct (HS y r' Hy) as (A & B & C & D). repeat split; auto; destruct (D h b0 H) as (? & ?); auto. apply in_or_app; auto.
      + intros y c Hc. apply in_app_or in Hc. destruct (String.eqb_spec x y) as [<-|Hxy].
        * exists (mkRule (r_name r) (put_N (r_body r) (hash b) b)). rewrite lookup_put, String.eqb_refl. cbn.
          destruct Hc as [Hc|[Hc|[]]].
          -- destruct (HC x c Hc) as (r' & c' & Hr' & Hin). rewrite E in Hr'. inversion Hr'; subst r'.
             destruct (N.eq_dec (hash c) (hash b)) as [Heq|Hneq].
             ++ exists b. split; [reflexivity|]. apply put_N_in; [exact Hnd|]. auto.
             ++ exists c'. split; [reflexivity|]. apply put_N_in; [exact Hnd|]. auto.
          -- inversion Hc; subst c. exists b. split; [reflexivity|]. apply put_N_in; [exact Hnd|]. auto.
        * destruct Hc as [Hc|[Hc|[]]]; [|inversion Hc; congruence].
          destruct (HC y c Hc) as (r' & c' & Hr' & Hin). exists r', c'. rewrite lookup_put.
          destruct (String.eqb_spec x y); [congruence|]. auto.
    - split.
      + intros y r' Hy. rewrite lookup_put in Hy. destruct (String.eqb_spec x y) as [<-|Hxy].
        * inversion Hy; subst r'; cbn. split; [reflexivity|]. split; [discriminate|].
          split; [repeat constructor; cbn; tauto|].
          intros h c [H|[]]. inversion H; subst. split; [reflexivity|]. apply in_or_app. right. left. reflexivity.
        * destruct (HS y r' Hy) as (A & B & C & D). repeat split; auto; destruct (D h b0 H) as (? & ?); auto. apply in_or_app; auto.
      + intros y c Hc. apply in_app_or in Hc. rewrite lookup_put. destruct (String.eqb_spec x y) as [<-|Hxy].
        * destruct Hc as [Hc|[Hc|[]]].
          -- destruct (HC x c Hc) as (r' & c' & Hr' & _). congruence.
          -- inversion Hc; subst c. eexists _, b. split; [reflexivity|]. left. reflexivity.
        * destruct Hc as [Hc|[Hc|[]]]; [|inversion Hc; congruence].
          destruct (HC y c Hc) as (r' & c' & Hr' & Hin). exists r', c'. auto.
  Qed.
  Lemma holds_nil : holds [] [].
  Proof. split; [intros x r H; discriminate | intros x b []]. Qed.

  (** what one token, one span adds *)
  Definition token_adds (k : token) : list (string * rulebody) :=
    let name := class_name (tok_type k) in
    if String.eqb name "" then [] else [(name, mkRb [mkTerm (tok_string k) TTerminal MNil] None)].
  Definition span_adds (terms : list term) (i : nat) (sp : span) : list (string * rulebody) :=
    match sp_value sp with
    | None => []
    | Some m => map (fun kv => (fst kv, entry_body sp terms kv)) (ord i m)
    end.

  Lemma holds_tokens ks : forall rules L, holds rules L -> holds (fold_left (add_token hash) ks rules) (L ++ flat_map token_adds ks).
  Proof.
    induction ks as [|k ks IH]; intros rules L H; cbn [fold_left flat_map]; [rewrite app_nil_r; exact H|].
    rewrite app_assoc. apply IH. unfold add_token, token_adds. destruct (String.eqb (class_name (tok_type k)) "").
    - rewrite app_nil_r. exact H.
    - apply holds_add. exact H.
  Qed.

  Lemma span_terms_ret ks : forall n s, s + n <= length ks -> span_terms ks s n = Ret (texts_as_terms (firstn n (skipn s ks))).
  Proof.
    induction n as [|n IH]; intros s Hs; [reflexivity|]. cbn [span_terms]. unfold idx.
    destruct (nth_error ks s) as [k|] eqn:E; [|apply nth_error_None in E; lia].
    cbn [bind]. rewrite IH by lia. cbn [bind].
    assert (Hsk : skipn s ks = k :: skipn (S s) ks).
    { clear -E. revert s E. induction ks as [|a ks IH]; intros [|s] E; cbn in E; try discriminate.
      - inversion E. reflexivity.
      - apply IH in E. exact E. }
    rewrite Hsk. reflexivity.
  Qed.
  Lemma span_terms_panic ks : forall n s, 0 < n -> length ks < s + n -> span_terms ks s n = Panic.
  Proof.
    induction n as [|n IH]; intros s Hn Hs; [lia|]. cbn [span_terms]. unfold idx.
    destruct (nth_error ks s) as [k|] eqn:E; [|reflexivity]. cbn [bind].
    assert (s < length ks) by (apply nth_error_Some; congruence).
    rewrite IH by lia. reflexivity.
  Qed.

  Definition in_range (d : document) (sp : span) : Prop :=
    forall m, sp_value sp = Some m -> sp_end sp <= sp_start sp \/ sp_end sp <= length (d_tokens d).

  Lemma add_span_ret d i sp rules L : holds rules L -> in_range d sp ->
    exists rules', add_span hash ord d i sp rules = Ret rules' /\
      holds rules' (L ++ span_adds (texts_as_terms (tokens_at d (sp_start sp) (sp_end sp))) i sp).
  Proof.
    intros H Hr. unfold add_span, span_adds. destruct (sp_value sp) as [m|] eqn:E; [|exists rules; rewrite app_nil_r; auto].
    assert (HT : span_terms (d_tokens d) (sp_start sp) (sp_end sp - sp_start sp) =
                 Ret (texts_as_terms (tokens_at d (sp_start sp) (sp_end sp)))).
    { destruct (Hr m E) as [Hle|Hle].
      - unfold tokens_at. replace (sp_end sp - sp_start sp) with 0 by lia. reflexivity.
      - destruct (le_lt_dec (sp_end sp) (sp_start sp)).
        + unfold tokens_at. replace (sp_end sp - sp_start sp) with 0 by lia. reflexivity.
        + apply span_terms_ret. lia. }
    rewrite HT. cbn [bind]. eexists. split; [reflexivity|].
    generalize (ord i m) as l. intros l. revert rules L H. induction l as [|kv l IH]; intros rules L H; cbn [fold_left map].
    - rewrite app_nil_r. exact H.
    - replace (L ++ (fst kv, entry_body sp (texts_as_terms (tokens_at d (sp_start sp) (sp_end sp))) kv)
                 :: map (fun kv => (fst kv, entry_body sp (texts_as_terms (tokens_at d (sp_start sp) (sp_end sp))) kv)) l)
        with ((L ++ [(fst kv, entry_body sp (texts_as_terms (tokens_at d (sp_start sp) (sp_end sp))) kv)])
                 ++ map (fun kv => (fst kv, entry_body sp (texts_as_terms (tokens_at d (sp_start sp) (sp_end sp))) kv)) l)
        by (rewrite <- app_assoc; reflexivity).
      apply IH. apply holds_add. exact H.
  Qed.

  Fixpoint spans_add (d : document) (i : nat) (sps : list span) : list (string * rulebody) :=
    match sps with
    | [] => []
    | sp :: sps' => span_adds (texts_as_terms (tokens_at d (sp_start sp) (sp_end sp))) i sp ++ spans_add d (S i) sps'
    end.
  Lemma add_spans_ret d sps : forall i rules L, holds rules L -> (forall sp, In sp sps -> in_range d sp) ->
    exists rules', add_spans hash ord d i sps rules = Ret rules' /\ holds rules' (L ++ spans_add d i sps).
  Proof.
    induction sps as [|sp sps IH]; intros i rules L H Hr; cbn [add_spans spans_add].
    - exists rules. rewrite app_nil_r. auto.
    - destruct (add_span_ret d i sp rules L H (Hr sp (or_introl eq_refl))) as (r1 & -> & H1). cbn [bind].
      destruct (IH (S i) r1 _ H1 (fun s Hs => Hr s (or_intror Hs))) as (r2 & -> & H2).
      exists r2. rewrite app_assoc. auto.
  Qed.
  Lemma add_spans_panic d sps sp : In sp sps -> ~ in_range d sp -> forall i rules,
    add_spans hash ord d i sps rules = Panic.
  Proof.
    induction sps as [|sp' sps IH]; intros Hin Hr i rules; [destruct Hin|]. cbn [add_spans].
    destruct (sp_value sp') as [m|] eqn:E.
    - unfold add_span. rewrite E.
      destruct (le_lt_dec (sp_end sp') (sp_start sp')) as [Hle|Hlt].
      + replace (sp_end sp' - sp_start sp') with 0 by lia. cbn [span_terms bind].
        destruct Hin as [->|Hin]; [|apply IH; auto]. exfalso. apply Hr. intros ? ?. auto.
      + destruct (le_lt_dec (sp_end sp') (length (d_tokens d))) as [Hle'|Hlt'].
        * rewrite span_terms_ret by lia. cbn [bind].
          destruct Hin as [->|Hin]; [|apply IH; auto]. exfalso. apply Hr. intros ? ?. auto.
        * rewrite span_terms_panic by lia. reflexivity.
    - unfold add_span. rewrite E. cbn [bind]. destruct Hin as [->|Hin]; [|apply IH; auto].
      exfalso. apply Hr. intros ? ?. congruence.
  Qed.

  Lemma spans_add_in d sps : forall i x b, In (x, b) (spans_add d i sps) <->
    exists sp m e, In sp sps /\ sp_value sp = Some m /\ In (x, e) m /\
      b = entry_body sp (texts_as_terms (tokens_at d (sp_start sp) (sp_end sp))) (x, e).
  Proof.
    induction sps as [|sp sps IH]; intros i x b; cbn [spans_add].
    - split; [intros []| intros (sp & m & e & [] & _)].
    - rewrite in_app_iff, IH. unfold span_adds. split.
      + intros [H|(sp' & m & e & Hin & R)]; [|exists sp', m, e; split; [right; exact Hin|exact R]].
        destruct (sp_value sp) as [m|] eqn:E; [|destruct H]. apply in_map_iff in H. destruct H as ((y, e) & Heq & Hin).
        inversion Heq; subst. exists sp, m, e. split; [left; reflexivity|]. split; [exact E|].
        split; [|reflexivity]. eapply Permutation_in; [apply Permutation_sym, (Hord i)|exact Hin].
      + intros (sp' & m & e & [<-|Hin] & Hm & He & ->).
        * left. rewrite Hm. apply in_map_iff. exists (x, e). split; [reflexivity|]. eapply Permutation_in; [apply Hord|exact He].
        * right. exists sp', m, e. auto.
  Qed.

  (** the last token that starts or ends at a byte *)
  Lemma last_some (f : token -> bool) (g : token -> nat) ks : forall r i,
    fold_left (fun r k => if f k then Some (g k) else r) ks r = Some i ->
    (exists k, In k ks /\ f k = true /\ g k = i) \/ (r = Some i /\ forall k, In k ks -> f k = false).
  Proof.
    induction ks as [|k ks IH]; intros r i H; cbn in H; [right; split; [exact H|intros k []]|].
    apply IH in H. destruct H as [(k' & Hk & R)|(Hr & Hall)]; [left; exists k'; split; [right; exact Hk|exact R]|].
    destruct (f k) eqn:E.
    - left. exists k. inversion Hr. auto using in_eq.
    - right. split; [exact Hr|]. intros k' [<-|Hk']; auto.
  Qed.
  Lemma last_exists (f : token -> bool) (g : token -> nat) ks k : In k ks -> f k = true -> forall r,
    exists i, fold_left (fun r k => if f k then Some (g k) else r) ks r = Some i.
  Proof.
    assert (Hmono : forall ks r, r <> None -> exists i, fold_left (fun r k => if f k then Some (g k) else r) ks r = Some i).
    { clear. induction ks as [|k ks IH]; intros r Hr; cbn; [destruct r as [i|]; [eauto|congruence]|].
      apply IH. destruct (f k); [discriminate|exact Hr]. }
    induction ks as [|k' ks IH]; intros Hin Hf r; [destruct Hin|]. cbn. destruct Hin as [->|Hin]; [|apply IH; auto].
    rewrite Hf. apply Hmono. discriminate.
  Qed.

  Lemma hit_exact d x : doc_ok d -> forall s e,
    regexp_hit find_all regexps d x s e <->
    exists sp, In sp (regexp_spans find_all span_text regexps d) /\ sp_value sp = Some [(x, EOther)] /\ sp_start sp = s /\ sp_end sp = e.
  Proof.
    intros (Hi & Hpos) s e. unfold regexp_spans. split.
    - intros (pat & ms & a & b & k & l & Hre & Hfa & Hab & Hk & Ha & He & Hl & Hb).
      assert (HS : starting_at (d_tokens d) a = Some s).
      { unfold starting_at.
        destruct (last_exists (fun k => Nat.eqb (tok_start k) a) tok_i (d_tokens d) k (nth_error_In _ _ Hk)) with (r := @None nat)
          as (i & Hi'); [apply Nat.eqb_eq; exact Ha|].
        rewrite Hi'. destruct (last_some _ _ _ _ _ Hi') as [(k' & Hin & Hf & Hg)|(Hn & _)]; [|discriminate].
        apply In_nth_error in Hin. destruct Hin as (j & Hj). apply Nat.eqb_eq in Hf.
        rewrite (Hi j k' Hj) in Hg. subst i. f_equal. eapply Hpos; eauto. left. congruence. }
      assert (HE : ending_at (d_tokens d) b = Some e).
      { unfold ending_at.
        destruct (last_exists (fun k => Nat.eqb (tok_end k) b) (fun k => tok_i k + 1) (d_tokens d) l (nth_error_In _ _ Hl)) with (r := @None nat)
          as (i & Hi'); [apply Nat.eqb_eq; exact Hb|].
        rewrite Hi'. destruct (last_some _ _ _ _ _ Hi') as [(k' & Hin & Hf & Hg)|(Hn & _)]; [|discriminate].
        apply In_nth_error in Hin. destruct Hin as (j & Hj). apply Nat.eqb_eq in Hf.
        rewrite (Hi j k' Hj) in Hg. subst i. f_equal. enough (j = e - 1) by lia. eapply Hpos; eauto. right. congruence. }
      eexists. split; [|split; [|split]].
      + apply in_flat_map. exists (x, pat). split; [exact Hre|]. cbn [fst snd]. rewrite Hfa. apply in_flat_map. exists (a, b).
        split; [exact Hab|]. unfold match_span. cbn [fst snd]. rewrite HS, HE. left. reflexivity.
      + reflexivity.
      + reflexivity.
      + reflexivity.
    - intros (sp & Hin & Hv & Hs & He). apply in_flat_map in Hin. destruct Hin as ((x', pat) & Hre & Hin). cbn [fst snd] in Hin.
      destruct (find_all pat (d_text d)) as [ms|] eqn:Efa; [|destruct Hin]. apply in_flat_map in Hin.
      destruct Hin as ((a, b) & Hab & Hin). unfold match_span in Hin. cbn [fst snd] in Hin.
      destruct (starting_at (d_tokens d) a) as [s'|] eqn:ES; [|destruct Hin].
      destruct (ending_at (d_tokens d) b) as [e'|] eqn:EE; [|destruct Hin].
      destruct Hin as [Hin|[]]. subst sp. cbn in *. inversion Hv; subst x' s' e'.
      destruct (last_some _ _ _ _ _ ES) as [(k & Hk & Hf & Hg)|(Hn & _)]; [|discriminate].
      destruct (last_some _ _ _ _ _ EE) as [(l & Hl & Hfl & Hgl)|(Hn & _)]; [|discriminate].
      apply In_nth_error in Hk. destruct Hk as (j & Hj). rewrite (Hi j k Hj) in Hg. subst j.
      apply In_nth_error in Hl. destruct Hl as (j & Hjl). rewrite (Hi j l Hjl) in Hgl.
      exists pat, ms, a, b, k, l. apply Nat.eqb_eq in Hf, Hfl.
      replace (e - 1) with j by lia. repeat split; auto. lia.
  Qed.
  Lemma regexp_spans_value d sp : In sp (regexp_spans find_all span_text regexps d) -> exists x, sp_value sp = Some [(x, EOther)].
  Proof.
    intros Hin. apply in_flat_map in Hin. destruct Hin as ((x', pat) & Hre & Hin). cbn [fst snd] in Hin.
    destruct (find_all pat (d_text d)) as [ms|] eqn:Efa; [|destruct Hin]. apply in_flat_map in Hin.
    destruct Hin as ((a, b) & Hab & Hin). unfold match_span in Hin. cbn [fst snd] in Hin.
    destruct (starting_at (d_tokens d) a); [|destruct Hin]. destruct (ending_at (d_tokens d) b); [|destruct Hin].
    destruct Hin as [<-|[]]. exists x'. reflexivity.
  Qed.
  Lemma regexp_spans_range d sp : doc_ok d -> In sp (regexp_spans find_all span_text regexps d) -> in_range d sp.
  Proof.
    intros Hok Hin m Hm. destruct (regexp_spans_value d sp Hin) as (x & Hx).
    assert (HH : regexp_hit find_all regexps d x (sp_start sp) (sp_end sp)) by (apply (proj2 (hit_exact d x Hok _ _)); exists sp; auto).
    destruct HH as (pat & ms & a & b & k & l & _ & _ & _ & _ & _ & He & Hl & _). right.
    assert (sp_end sp - 1 < length (d_tokens d)) by (apply nth_error_Some; congruence). lia.
  Qed.

  Lemma class_name_of k x : class_of k x <-> x <> "" /\ class_name k = x.
  Proof. split; [intros []; split; (discriminate || reflexivity)| intros (Hne & <-); destruct k; cbn in *; (constructor || congruence)]. Qed.

  Definition additions (d : document) : list (string * rulebody) :=
    flat_map token_adds (d_tokens d) ++ spans_add d 0 (d_spans d ++ regexp_spans find_all span_text regexps d).
  Lemma additions_exact d x b : doc_ok d -> (In (x, b) (additions d) <-> local_alt find_all regexps d x b).
  Proof.
    intros Hok. unfold additions. rewrite in_app_iff, spans_add_in. split.
    - intros [H|(sp & m & e & Hin & Hm & He & ->)].
      + apply in_flat_map in H. destruct H as (k & Hk & H). unfold token_adds in H.
        destruct (String.eqb_spec (class_name (tok_type k)) "") as [E|E]; [destruct H|]. destruct H as [H|[]]. inversion H; subst.
        apply la_class; [exact Hk|]. apply class_name_of. auto.
      + apply in_app_or in Hin. destruct Hin as [Hin|Hin].
        * destruct e as [items|]; [eapply la_entity; eauto | eapply la_span; eauto].
        * destruct (regexp_spans_value d sp Hin) as (y & Hy). rewrite Hm in Hy. inversion Hy; subst m.
          destruct He as [He|[]]. inversion He; subst. apply la_regexp. apply (proj2 (hit_exact d x Hok _ _)). exists sp. auto.
    - intros H. destruct H as [k x Hk Hc | sp m x Hin Hm He | sp m x items Hin Hm He | x s e Hh].
      + left. apply in_flat_map. exists k. split; [exact Hk|]. apply class_name_of in Hc. destruct Hc as (Hne & Hc).
        unfold token_adds. rewrite Hc. destruct (String.eqb_spec x ""); [congruence|]. left. reflexivity.
      + right. exists sp, m, EOther. split; [apply in_or_app; auto|]. auto.
      + right. exists sp, m, (EList items). split; [apply in_or_app; auto|]. auto.
      + right. apply (proj1 (hit_exact d x Hok _ _)) in Hh. destruct Hh as (sp & Hin & Hv & <- & <-).
        exists sp, [(x, EOther)], EOther. split; [apply in_or_app; auto|]. split; [exact Hv|]. split; [left; reflexivity|reflexivity].
  Qed.

  (** the rules of an optional grammar *)
  Definition opt_rules (l : option grammar_rules) : list grammar_rules := match l with Some g => [g] | None => [] end.

  Lemma local_total d : doc_ok d ->
    (spans_ok d -> exists l, local_grammar hash find_all span_text regexps ord d = Ret l) /\
    (~ spans_ok d -> local_grammar hash find_all span_text regexps ord d = Panic).
  Proof.
    intros Hok. split.
    - intros Hsp. unfold local_grammar.
      destruct (add_spans_ret d (d_spans d ++ regexp_spans find_all span_text regexps d) 0 _ _ (holds_tokens (d_tokens d) [] [] holds_nil))
        as (rs & -> & _).
      + intros sp Hin. apply in_app_or in Hin. destruct Hin as [Hin|Hin]; [intros m Hm; eapply Hsp; eauto | apply regexp_spans_range; auto].
      + cbn [bind]. destruct rs; eauto.
    - intros Hn. unfold local_grammar.
      assert (HE : exists sp, In sp (d_spans d) /\ ~ in_range d sp).
      { apply Exists_exists. apply Exists_Forall_neg.
        - intros sp. unfold in_range. destruct (sp_value sp) as [m|]; [|left; congruence].
          destruct (le_lt_dec (sp_end sp) (sp_start sp)); [left; auto|].
          destruct (le_lt_dec (sp_end sp) (length (d_tokens d))); [left; auto|].
          right. intros H. destruct (H m eq_refl); lia.
        - intros HF. apply Hn. intros sp m Hin Hm. rewrite Forall_forall in HF. apply (HF sp Hin m Hm). }
      destruct HE as (sp & Hin & Hr).
      rewrite (add_spans_panic d _ sp (in_or_app _ _ _ (or_introl Hin)) Hr). reflexivity.
  Qed.

  Lemma local_holds d l : doc_ok d -> local_grammar hash find_all span_text regexps ord d = Ret l ->
    exists rs, holds rs (additions d) /\ ((rs = [] /\ l = None) \/ (rs <> [] /\ l = Some rs)).
  Proof.
    intros Hok Hl.
    assert (Hr : forall sp, In sp (d_spans d ++ regexp_spans find_all span_text regexps d) -> in_range d sp).
    { assert (Hd : Forall (in_range d) (d_spans d)).
      { destruct (Forall_Exists_dec (in_range d)) with (l := d_spans d) as [HF|HE]; [|exact HF|].
        - intros sp. unfold in_range. destruct (sp_value sp) as [m|]; [|left; congruence].
          destruct (le_lt_dec (sp_end sp) (sp_start sp)); [left; auto|].
          destruct (le_lt_dec (sp_end sp) (length (d_tokens d))); [left; auto|].
          right. intros H. destruct (H m eq_refl); lia.
        - exfalso. apply Exists_exists in HE. destruct HE as (sp & Hin & Hn). unfold local_grammar in Hl.
          rewrite (add_spans_panic d _ sp (in_or_app _ _ _ (or_introl Hin)) Hn) in Hl. discriminate Hl. }
      intros sp Hin. apply in_app_or in Hin. destruct Hin as [Hin|Hin]; [exact (proj1 (Forall_forall _ _) Hd sp Hin) | apply regexp_spans_range; auto]. }
    unfold local_grammar in Hl.
    destruct (add_spans_ret d (d_spans d ++ regexp_spans find_all span_text regexps d) 0 _ _ (holds_tokens (d_tokens d) [] [] holds_nil) Hr)
      as (rs & E & HH). rewrite E in Hl. cbn [bind] in Hl. exists rs. split; [exact HH|].
    destruct rs; inversion Hl; [left|right]; auto. split; [discriminate|reflexivity].
  Qed.

  Lemma has_body_one g x b : has_body [g] x b <-> exists r h, lookup g x = Some r /\ In (h, b) (r_body r).
  Proof.
    split; [intros (g' & r & h & [<-|[]] & R); eauto | intros (r & h & R); exists g, r, h; split; [left; reflexivity|exact R]].
  Qed.

  Lemma local_sound d l x b : doc_ok d -> local_grammar hash find_all span_text regexps ord d = Ret l ->
    has_body (opt_rules l) x b -> local_alt find_all regexps d x b.
  Proof.
    intros Hok Hl Hb. destruct (local_holds d l Hok Hl) as (rs & (HS & HC) & [(-> & ->)|(Hne & ->)]); cbn [opt_rules] in Hb.
    - destruct Hb as (g & r & h & [] & _).
    - apply has_body_one in Hb. destruct Hb as (r & h & Hr & Hb).
      apply additions_exact; [exact Hok|]. apply (HS x r Hr) in Hb. apply Hb.
  Qed.
  Lemma local_complete d l x b : doc_ok d -> hash_separates find_all regexps d hash ->
    local_grammar hash find_all span_text regexps ord d = Ret l ->
    local_alt find_all regexps d x b -> has_body (opt_rules l) x b.
  Proof.
    intros Hok Hh Hl Hb. destruct (local_holds d l Hok Hl) as (rs & (HS & HC) & Hcase).
    destruct (HC x b (proj2 (additions_exact d x b Hok) Hb)) as (r & b' & Hr & Hin).
    destruct (HS x r Hr) as (_ & _ & _ & HB). destruct (HB _ _ Hin) as (Heq & Hin').
    apply (additions_exact d x b' Hok) in Hin'. assert (b = b') by (eapply Hh; eauto). subst b'.
    destruct Hcase as [(-> & ->)|(_ & ->)]; [discriminate Hr|]. apply has_body_one. eauto.
  Qed.
  Theorem local_exact d l : doc_ok d -> hash_separates find_all regexps d hash ->
    local_grammar hash find_all span_text regexps ord d = Ret l ->
    forall x b, has_body (opt_rules l) x b <-> local_alt find_all regexps d x b.
  Proof. intros Hok Hh Hl x b. split; [apply local_sound; auto | apply local_complete; auto]. Qed.

  Lemma local_named d l : doc_ok d -> local_grammar hash find_all span_text regexps ord d = Ret l -> named_rules (opt_rules l).
  Proof.
    intros Hok Hl g x r Hg Hr. destruct (local_holds d l Hok Hl) as (rs & (HS & HC) & [(-> & ->)|(Hne & ->)]); cbn in Hg.
    - destruct Hg.
    - destruct Hg as [<-|[]]. apply (HS x r Hr).
  Qed.
End Local.
