(** Grammars for which refinement changes the language. *)
From Coq Require Import Ascii.
From Verif Require Import Base ModelTypes ModelText ModelEarley ModelMatch ModelReader ModelGrammar
  SpecGrammar SpecNotation SpecRefine SpecConstruct Examples ExamplesGrammar ProofReader ProofReaderMain ProofRefine ProofGrammar ProofConstruct.

(** the bodies of a rule in a concrete grammar *)
Definition bodies_of (gs : list grammar_rules) (x : string) : list (list term) :=
  flat_map (fun g => match lookup g x with Some r => map (fun hb => rb_terms (snd hb)) (r_body r) | None => [] end) gs.
Lemma has_alt_iff gs x ts : has_alt gs x ts <-> In ts (bodies_of gs x).
Proof.
  unfold has_alt, has_body, bodies_of. rewrite in_flat_map. split.
  - intros (b & (g & r & h & Hg & L & Hb) & <-). exists g. split; [exact Hg|]. rewrite L. apply in_map_iff. exists (h, b). auto.
  - intros (g & Hg & H). destruct (lookup g x) as [r|] eqn:L; [|destruct H]. apply in_map_iff in H. destruct H as ((h, b) & <- & H).
    exists b. split; [|reflexivity]. exists g, r, h. auto.
Qed.

(** derivations of bounded depth, computed: for a term and a start, the possible ends *)
Section Search.
  Variable tmatch : term -> option token -> bool.
  Variable gs : list grammar_rules.
  Variable toks : list token.
  Fixpoint ends (n : nat) (t : term) (i : nat) : list nat :=
    match n with
    | O => []
    | S n' =>
        match t_type t with
        | TTerminal => match nth_error toks i with Some k => if tmatch t (Some k) then [S i] else [] | None => [] end
        | TNonterminal =>
            flat_map (fun ts => fold_left (fun js t' => flat_map (ends n' t') js) ts [i]) (bodies_of gs (t_value t))
        | _ => []
        end
    end.
  Lemma fold_seq (f : term -> nat -> list nat) ts : forall (js : list nat) k,
    (forall t j k, In t ts -> In k (f t j) -> derives (has_alt gs) (accepts_by tmatch) toks own_range (fun _ _ => True) t j k) ->
    In k (fold_left (fun js t' => flat_map (f t') js) ts js) ->
    exists i, In i js /\ derives_seq (has_alt gs) (accepts_by tmatch) toks own_range (fun _ _ => True) ts i k.
  Proof.
    induction ts as [|t ts IH]; intros js k Hf H; cbn [fold_left] in H.
    - exists k. split; [exact H|constructor].
    - destruct (IH _ _ (fun t' j k' Ht => Hf t' j k' (or_intror Ht)) H) as (j & Hj & D). apply in_flat_map in Hj. destruct Hj as (i & Hi & Hj).
      exists i. split; [exact Hi|]. econstructor; [|exact D]. apply Hf; [left; reflexivity|exact Hj].
  Qed.
  Lemma ends_sound n : forall t i j, In j (ends n t i) -> Derives tmatch gs toks t i j.
  Proof.
    induction n as [|n IH]; intros t i j H; [destruct H|]. cbn [ends] in H. destruct (t_type t) eqn:E; try (destruct H; fail).
    - apply in_flat_map in H. destruct H as (ts & Ha & H). apply has_alt_iff in Ha.
      destruct (fold_seq (ends n) ts [i] j (fun t' j' k' _ => IH t' j' k') H) as (i' & [<-|[]] & D).
      eapply d_rule; eauto.
    - destruct (nth_error toks i) as [k|] eqn:En; [|destruct H]. destruct (tmatch t (Some k)) eqn:Em; [|destruct H].
      destruct H as [<-|[]]. eapply d_terminal; eauto.
  Qed.

  (** when the rules from [t] on are layered in depth, the computation is exact *)
  Fixpoint layered (n : nat) (t : term) : bool :=
    match n with
    | O => false
    | S n' =>
        match t_type t with
        | TTerminal => true
        | TNonterminal => forallb (forallb (layered n')) (bodies_of gs (t_value t))
        | _ => false
        end
    end.
  Lemma ends_complete n : forall t i j, layered n t = true -> Derives tmatch gs toks t i j -> In j (ends n t i).
  Proof.
    induction n as [|n IH]; intros t i j HL D; [discriminate|]. cbn [layered] in HL. cbn [ends].
    inversion D as [t0 i0 tok E Hk Ha _ | t0 i0 j0 ts E Ha Ds _ | t0 i0 j0 E Hij Hc _ | t0 i0 j0 m E Hc Ds _]; subst; rewrite E in HL; rewrite E; try discriminate.
    - unfold accepts_by in Ha. rewrite Hk, Ha. left. reflexivity.
    - apply has_alt_iff in Ha. apply in_flat_map. exists ts. split; [exact Ha|].
      rewrite forallb_forall in HL. specialize (HL ts Ha). clear Ha D E.
      assert (K : forall js, In i js -> In j (fold_left (fun js t' => flat_map (ends n t') js) ts js)).
      { revert i Ds. induction ts as [|t' ts IHs]; intros i Ds js Hi; inversion Ds; subst; cbn [fold_left]; [exact Hi|].
        cbn [forallb] in HL. apply andb_true_iff in HL. destruct HL as [HL1 HL2].
        eapply IHs; [exact HL2|eassumption|]. apply in_flat_map. exists i. split; [exact Hi|]. apply IH; assumption. }
      apply K. left. reflexivity.
  Qed.
End Search.

Lemma flags_by_order :
  let r := from_string (xenv [] keep) 200 9 text_flags "n" [] in
  let r' := from_string (xenv [] backwards) 200 9 text_flags "n" [] in
  let tm r := terminal_match (lookup (tokens_of r)) (fun s => s) in
  (exists g w g' w', r = Ret (Some g, w) /\ r' = Ret (Some g', w')) /\
  Derives (tm r) (rules_of r) [tok_X] (nonterm "b") 0 1 /\
  ~ Derives (tm r') (rules_of r') [tok_X] (nonterm "b") 0 1.
Proof.
  cbv zeta. split; [|split].
  - do 4 eexists. split; vm_compute; reflexivity.
  - apply (ends_sound _ _ _ 5). vm_compute. auto.
  - intros D. apply (ends_complete _ _ _ 5) in D; [|vm_compute; reflexivity]. vm_compute in D. exact D.
Qed.
Lemma names_collide :
  let r := from_string (xenv [] keep) 200 9 text_foobar "n" [] in
  let r' := from_string (xenv file_foobar keep) 200 9 text_foobar_include "n" [] in
  let tm r := terminal_match (lookup (tokens_of r)) (fun s => s) in
  let toks := xwords 0 ["foo"; "-"; "bar"]%string in
  (exists g w g' w', r = Ret (Some g, w) /\ r' = Ret (Some g', w')) /\
  ~ Derives (tm r) (rules_of r) toks (nonterm "a") 0 3 /\
  Derives (tm r') (rules_of r') toks (nonterm "a") 0 3.
Proof.
  cbv zeta. split; [|split].
  - do 4 eexists. split; vm_compute; reflexivity.
  - intros D. apply (ends_complete _ _ _ 5) in D; [|vm_compute; reflexivity]. vm_compute in D. exact D.
  - apply (ends_sound _ _ _ 5). vm_compute. auto.
Qed.
Lemma dangling_captured :
  let r := from_string (xenv [] keep) 200 9 text_dangling "n" [] in
  let r' := from_string (xenv [] keep) 200 9 text_dangling_more "n" [] in
  let tm r := terminal_match (lookup (tokens_of r)) (fun s => s) in
  let toks := xwords 0 ["foo"]%string in
  (exists g w g' w', r = Ret (Some g, w) /\ r' = Ret (Some g', w')) /\
  ~ Derives (tm r) (rules_of r) toks (nonterm "a") 0 1 /\
  Derives (tm r') (rules_of r') toks (nonterm "a") 0 1.
Proof.
  cbv zeta. split; [|split].
  - do 4 eexists. split; vm_compute; reflexivity.
  - intros D. apply (ends_complete _ _ _ 5) in D; [|vm_compute; reflexivity]. vm_compute in D. exact D.
  - apply (ends_sound _ _ _ 5). vm_compute. auto.
Qed.

(** *** a grammar that meets the conditions of the language theorem *)
Lemma small_items : e_items (xenv [] keep) items_small [] (runes text_small).
Proof.
  assert (Hn : forall c, (97 <= c <= 98)%Z -> name_text (is_letter (fun _ => false)) (is_digit (fun _ => false)) [c]).
  { intros c Hc. split; [|constructor]. left. unfold is_letter.
    assert (Hcc : c = 97%Z \/ c = 98%Z) by lia. destruct Hcc as [-> | ->]; reflexivity. }
  unfold items_small, e_items.
  change (runes text_small) with ([] ++ (([60] ++ [97] ++ [62] ++ [] ++ [61] ++ [] ++ [34; 120; 32; 121; 34; 60; 98; 62] ++ [59])%Z ++
     ([] ++ ([60] ++ [98] ++ [62] ++ [] ++ [61] ++ [] ++ [34; 122; 34] ++ [59])%Z ++ []))).
  change (@nil (string * string)) with ((@nil (string * string)) ++ ([] ++ [])).
  apply wis_item; [constructor| |apply wis_item; [constructor| |apply wis_end; constructor]].
  - change "a"%string with (encode [97%Z]). apply wi_rule; [apply Hn; lia|constructor|constructor|].
    apply wbs_last. apply wb_plain.
    change [34; 120; 32; 121; 34; 60; 98; 62]%Z with ([34; 120; 32; 121; 34] ++ [] ++ ([60; 98; 62] ++ []))%Z.
    change (@nil (string * string)) with ((@nil (string * string)) ++ []).
    apply wts_more; [|constructor|apply wts_last; [|constructor]].
    + apply wt_text. change "x y"%string with (encode [120; 32; 121]%Z).
      change [34; 120; 32; 121; 34]%Z with ([34] ++ [] ++ [120; 32; 121] ++ [34])%Z.
      apply lit_plain; [constructor| |split; [reflexivity|discriminate]].
      repeat (apply spells_plain; [discriminate|discriminate|]). constructor.
    + change "b"%string with (encode [98%Z]). apply (wt_nonterminal _ _ _ _ [98%Z]). apply Hn. lia.
  - change "b"%string with (encode [98%Z]). apply wi_rule; [apply Hn; lia|constructor|constructor|].
    apply wbs_last. apply wb_plain.
    change [34; 122; 34]%Z with ([34; 122; 34] ++ [])%Z. apply wts_last; [|constructor].
    apply wt_text. change "z"%string with (encode [122]%Z). change [34; 122; 34]%Z with ([34] ++ [] ++ [122] ++ [34])%Z.
    apply lit_plain; [constructor| |split; [reflexivity|discriminate]].
    apply spells_plain; [discriminate|discriminate|]. constructor.
Qed.

Definition small_rules : grammar_rules := add_items xhash false [] items_small.
Lemma occurs_bodies gs t : occurs gs t -> exists x ts, In ts (bodies_of gs x) /\ In t ts.
Proof. intros (x & b & Hb & Ht). exists x, (rb_terms b). split; [apply has_alt_iff; exists b; auto|exact Ht]. Qed.
Lemma small_occurs t : occurs [small_rules] t ->
  t = mkTerm "x y" TTerminal MNil \/ t = mkTerm "b" TNonterminal MNil \/ t = mkTerm "z" TTerminal MNil.
Proof.
  intros H. destruct H as (x & b & (g & r & h & [<-|[]] & L & Hb) & Ht).
  apply lookup_some_in in L. vm_compute in L.
  destruct L as [L|[L|[]]]; inversion L; subst; cbn [r_body In] in Hb; destruct Hb as [Hb|[]]; inversion Hb; subst;
    cbn [rb_terms In] in Ht; repeat (destruct Ht as [<-|Ht]; [auto|]); destruct Ht.
Qed.
Lemma small_parts_at : exists g w T,
  from_string (xenv [] keep) 200 1 text_small "n" [] = Ret (Some g, w) /\ g_includes g = [] /\ g_regexps g = [] /\
  e_parts (xenv [] keep) text_small g [mkRefined T small_rules (g_rules g)].
Proof.
  assert (HD : forall frame, denotes xhash items_small frame (add_items xhash frame [] items_small)).
  { intros frame. apply add_items_denotes. repeat constructor; discriminate. }
  destruct (from_string (xenv [] keep) 200 1 text_small "n" []) as [[[g|] w]| | |] eqn:E; try (vm_compute in E; discriminate).
  exists g, w.
  assert (Er : refine xtokenize (fun s => s) xhash 200 "g" small_rules [] = Ret (g_rules g, w_tokens w)).
  { vm_compute in E. inversion E. vm_compute. reflexivity. }
  pose proof (refine_ok xtokenize (fun s => s) xhash small_rules 200 "g" [] (denotes_proper _ _ _ _ (HD false))) as K.
  rewrite Er in K. destruct K as (T & K1 & K2).
  assert (Eg : g_rules g = g_rules g /\ g_frames g = add_items xhash true [] items_small /\ g_includes g = [] /\ g_regexps g = []).
  { vm_compute in E. inversion E. vm_compute. auto. }
  destruct Eg as (E1 & E2 & E3 & E4).
  assert (HP : e_parts (xenv [] keep) text_small g [mkRefined T small_rules (g_rules g)]).
  { exists (mkRefined T small_rules (g_rules g)), []. split; [reflexivity|]. split; [symmetry; exact E1|]. split; [|rewrite E3; constructor].
    exists [], items_small, []. split; [|split; [|split; [|split; [|split]]]].
    - left. exists (runes text_small). split; [repeat constructor; discriminate|]. split; [reflexivity|]. constructor. exact small_items.
    - rewrite E2. apply HD.
    - apply HD.
    - exact K1.
    - exact (first_named _ _ _ _ K2).
    - unfold regexps_of. rewrite E3, E4. split; [constructor|]. split; [|discriminate].
      intros h. cbn [lookup map In]. split; [congruence|]. intros [[]|(ig & [] & _)]. }
  exists T. auto.
Qed.
Lemma small_parts : exists g w L,
  from_string (xenv [] keep) 200 1 text_small "n" [] = Ret (Some g, w) /\
  e_parts (xenv [] keep) text_small g L /\ compatible L /\ uniform_flags (map rd_before L) /\
  no_dangling "g_t" (map rd_before L) /\ (exists m, In m (map rd_before L) /\ lookup m "a"%string <> None) /\
  Derives xmatch (all_rules g) (xwords 0 ["x"; "y"; "z"]%string) (nonterm "a") 0 3.
Proof.
  destruct small_parts_at as (g & w & T & E & E3 & _ & HP). exists g, w.
  exists [mkRefined T small_rules (g_rules g)]. split; [exact E|]. split; [exact HP|]. split; [eapply env_single; [exact HP|exact E3]|].
  cbn [map rd_before]. split; [|split; [|split]].
  - clear. intros t t' Ho Ho' Et Et' Ev. apply small_occurs in Ho. apply small_occurs in Ho'.
    destruct Ho as [-> | [-> | ->]]; destruct Ho' as [-> | [-> | ->]]; try discriminate; reflexivity.
  - clear. intros t Ho Et Hp. apply small_occurs in Ho. destruct Ho as [-> | [-> | ->]]; discriminate.
  - clear. exists small_rules. split; [left; reflexivity|vm_compute; discriminate].
  - apply (ends_sound _ _ _ 5). vm_compute in E. inversion E. vm_compute. auto.
Qed.
Lemma cyclic_bounded f b : e_read (xenv cyclic_files keep) f = Ret b -> In f (map fst cyclic_files) /\ String.length b < 200.
Proof.
  cbn [xenv e_read]. unfold xread. destruct (lookup cyclic_files f) as [b'|] eqn:E; [|discriminate]. intros H. injection H as <-.
  apply lookup_some_in in E. split; [apply in_map_iff; exists (f, b'); auto|].
  assert (K : forallb (fun kv => Nat.ltb (String.length (snd kv)) 200) cyclic_files = true) by (vm_compute; reflexivity).
  rewrite forallb_forall in K. specialize (K _ E). apply Nat.ltb_lt in K. exact K.
Qed.
