(** The shipped files meet what the parser asks of grammar texts. *)
From Verif Require Import Base ModelTypes ModelText ModelEarley ModelReader ModelGrammar
  SpecGrammar SpecNotation SpecRefine SpecConstruct SpecSem SpecEnd ModelShipped SpecShipped ProofRefine ProofGrammar ProofConstruct ProofRecognize ProofLoads
  ProofEnd ProofUnique ProofMeaning ProofShipped ProofShippedMain.
Local Open Scope list_scope.

Lemma prefix_substring p s n : String.length p <= n -> String.prefix p (substring 0 n s) = String.prefix p s.
Proof.
  revert s n. induction p as [|a p IH]; intros s n H; [destruct n, s; reflexivity|].
  cbn [String.length] in H. destruct n as [|n]; [lia|]. destruct s as [|b s]; [reflexivity|].
  cbn [substring String.prefix]. destruct (Ascii.ascii_dec a b); [|reflexivity]. apply IH. lia.
Qed.

Lemma substring_long s n : n <= String.length s -> String.length (substring 0 n s) = n.
Proof.
  revert n. induction s as [|a s IH]; intros n H; destruct n as [|n]; cbn in *; try lia. rewrite IH; lia.
Qed.
Lemma below_sf name q : In q (below name) -> name <> "sf.grammar"%string /\ q <> "sf.grammar"%string.
Proof.
  unfold below. intros H.
  repeat match type of H with
  | In _ (if ?b then _ else _) => destruct b eqn:?
  end; try contradiction;
  match goal with E : String.eqb name _ = true |- _ => apply String.eqb_eq in E; rewrite E end;
  (split; [discriminate|]); cbn in H; intros ->; intuition discriminate.
Qed.

Section Usable.
  Variable e : env.
  Hypothesis HE : env_ok e.
  Variables half cent : bigf.
  Hypothesis Hhalf : e_scan e "0.5" = Ret half.
  Hypothesis Hcent : e_scan e "0.01" = Ret cent.
  Hypothesis Hpat : e_regexp_ok e sf_pattern = true.
  Hypothesis Htexts : texts_have_tokens e.
  Hypothesis Hmd5 : String.prefix "g_t" (e_md5 e sf_pattern) = false.

  Let items := items_of e half cent.
  Definition any_range (name : string) : meta :=
    if String.eqb name "sf.grammar" then MMap (Some 1%Z) (Some 1%Z) else MNil.
  Definition blank (s : string) : bool := match trim_space s with EmptyString => true | _ => false end.
  Definition plain_term (name : string) (t : term) : Prop :=
    match t_type t with
    | TTerminal => t_meta t = MNil /\ blank (t_value t) = false
    | TNonterminal => t_value t = substring 0 16 (e_md5 e sf_pattern) \/
        negb (String.prefix "g_t" (t_value t)) && negb (String.eqb (t_value t) GammaRule) = true
    | TAny => t_meta t = any_range name /\ t_value t = "any"%string
    | TList => t_meta t = MNil /\ t_value t = "city_ext"%string
    | _ => False
    end.
  Definition fits_all (b : rulebody) : bool := match rb_f b with Some f => fun_okb (length (rb_terms b)) f | None => true end.
  Definition plain_body (name : string) (b : rulebody) : Prop :=
    (String.eqb name "sf.grammar" || fits_all b = true) /\ all (plain_term name) (rb_terms b).
  Definition dir_plain (l : list (string * string)) : Prop :=
    all (fun nt => all (fun it => if it_frame it then True else all (plain_body (fst nt)) (it_bodies it)) (items (snd nt))) l.
  Lemma dirs_plain : all dir_plain shipped.
  Proof using Type. vm_compute. repeat split; first [right; reflexivity|left; reflexivity]. Qed.

  Variables (dir : string) (l : list (string * string)).
  Hypothesis Hl : In l shipped.
  Hypothesis Hin : installed e dir l.

  Lemma text_bodies name text g rules T : In (name, text) l -> name <> rejected ->
    written_as (e_letter e) (e_digit e) (e_scan e) (e_regexp_ok e) (e_md5 e) (e_hash e) (e_tokenize e) (e_ascii e) text g rules T ->
    forall x b, has_body [rules] x b -> plain_body name b.
  Proof using HE Hhalf Hcent Hpat Hl.
    intros Hn Hr (ps & its & re & HT & _ & D & _) x b (m & r & h & [<-|[]] & Hx & Hb).
    pose proof dirs_ok as K. specialize (K e half cent). rewrite forallb_forall in K. specialize (K l Hl). unfold dir_ok in K.
    rewrite forallb_forall in K. specialize (K _ Hn). cbn [fst snd] in K.
    apply orb_true_iff in K as [K|K]; [apply String.eqb_eq in K; contradiction|].
    apply andb_true_iff in K as [K1 K2]. unfold paths in K2. destruct (parse e half cent text) as [[[ps' its'] re']|] eqn:P; [|discriminate].
    pose proof (parsed e HE half cent Hhalf Hcent Hpat _ _ _ _ K1 P) as HT'.
    destruct (one_reading e HE _ _ _ _ _ _ _ HT HT') as (_ & W & _).
    destruct D as (_ & D2 & D3).
    destruct (D3 x) as (r' & L' & _ & N' & H').
    { intros C. apply D2 in C. rewrite Hx in C. discriminate. }
    rewrite Hx in L'. injection L' as <-. pose proof (lookup_N_in _ _ _ N' Hb) as E. rewrite H' in E.
    apply find_some in E as [E _]. rewrite <- in_rev in E. apply W in E. unfold written in E.
    apply in_flat_map in E as (it & Hit & E). destruct (it_frame it) eqn:F; [destruct E|]. cbn [Bool.eqb andb] in E.
    destruct (String.eqb (it_name it) x); [|destruct E].
    pose proof (all_in _ _ _ (all_in _ _ _ dirs_plain Hl) Hn) as A. cbn [fst snd] in A. unfold items, items_of in A. rewrite P in A.
    pose proof (all_in _ _ _ A Hit) as B. cbv beta in B. rewrite F in B. exact (all_in _ _ _ B E).
  Qed.

  Variables (name text : string).
  Hypothesis Hn : In (name, text) l.
  Hypothesis Hr : name <> rejected.
  Variables (fuel depth : nat) (gt : list (string * token)) (g : grammar) (w' : world).
  Hypothesis Hload : from_file e fuel depth (e_join e dir name) gt = Ret (Some g, w').

  Lemma file_bodies L : e_parts e text g L -> forall x b, has_body (map rd_before L) x b -> plain_body name b.
  Proof using HE Hhalf Hcent Hpat Hl Hin Hn Hr Hload.
    intros (p & ps & -> & _ & HW & F) x b (m & r & h & Hm & Hx & Hb). cbn [map] in Hm. destruct Hm as [<-|Hm].
    - apply (text_bodies _ _ _ _ _ Hn Hr HW x b). exists (rd_before p), r, h. split; [left; reflexivity|auto].
    - apply in_map_iff in Hm as (q & <- & Hq).
      assert (exists ig, In ig (g_includes g) /\ exists b, e_read e (g_name ig) = Ret b /\
        written_as (e_letter e) (e_digit e) (e_scan e) (e_regexp_ok e) (e_md5 e) (e_hash e) (e_tokenize e) (e_ascii e) b ig (rd_before q) (rd_table q)) as (ig & Hig & tx & Rq & Wq).
      { clear - F Hq. induction F as [|ig q' igs ps [_ H] F IH]; [destruct Hq|]. destruct Hq as [->|Hq].
        - exists ig. split; [left; reflexivity|exact H].
        - destruct (IH Hq) as (ig' & H1 & H2). exists ig'. split; [right; exact H1|exact H2]. }
      destruct (env_file_files e HE fuel depth _ gt _ w' Hload) as (g0 & b0 & dir' & E0 & Hr0 & Hd0 & _ & _ & Hi & _).
      injection E0 as <-. destruct (Hin _ _ Hn) as [R1 R2]. rewrite R1 in Hr0. injection Hr0 as <-. rewrite R2 in Hd0. injection Hd0 as <-.
      destruct (proj1 (Hi (g_name ig)) (in_map _ _ _ Hig)) as [Hre _].
      destruct (reached_below e HE half cent Hhalf Hcent Hpat dir l Hl Hin name text Hn Hr _ Hre) as (f & t & Hf & Hft & Hfr & Ef).
      rewrite Ef in Rq. destruct (Hin _ _ Hft) as [R3 _]. rewrite R3 in Rq. injection Rq as <-.
      destruct (below_sf name f Hf) as [N1 N2].
      destruct (text_bodies f t ig _ _ Hft Hfr Wq x b) as [A B].
      { exists (rd_before q), r, h. split; [left; reflexivity|auto]. }
      assert (E1 : String.eqb f "sf.grammar" = false) by (apply String.eqb_neq; exact N2).
      assert (E2 : String.eqb name "sf.grammar" = false) by (apply String.eqb_neq; exact N1).
      split; [rewrite E1 in A; rewrite E2; exact A|].
      clear - B E1 E2. induction (rb_terms b) as [|t ts IH]; [exact I|]. destruct B as [B1 B2]. split; [|exact (IH B2)].
      unfold plain_term, any_range in *. rewrite E2. rewrite E1 in B1. exact B1.
  Qed.

  Lemma usable_file : exists L, e_parts e text g L /\ map rd_after L = all_rules g /\
    (below name = [] -> compatible L) /\
    (name <> "sf.grammar"%string -> functions_fit (map rd_before L)) /\
    (compatible L -> forall starts, starts <> [] ->
       (forall S, In S starts -> S <> GammaRule /\ String.prefix "g_t" S = false) -> usable (e_tokenize e) L starts).
  Proof using HE Hhalf Hcent Hpat Hl Hin Hn Hr Hload Htexts Hmd5.
    destruct (file_fresh e HE _ _ _ _ _ _ Hload) as (tx & Hrd & L & HL & HA).
    destruct (Hin _ _ Hn) as [R1 R2]. rewrite R1 in Hrd. injection Hrd as <-.
    exists L. split; [exact HL|]. split; [exact HA|].
    pose proof (file_bodies L HL) as HB.
    split; [|split].
    - intros E. eapply env_single; [exact HL|].
      destruct (env_file_files e HE fuel depth _ gt _ w' Hload) as (g0 & b0 & dir' & E0 & Hr0 & Hd0 & _ & _ & Hi & _).
      injection E0 as <-. rewrite R1 in Hr0. injection Hr0 as <-. rewrite R2 in Hd0. injection Hd0 as <-.
      destruct (g_includes g) as [|ig igs] eqn:Eg; [reflexivity|]. exfalso.
      destruct (proj1 (Hi (g_name ig)) (or_introl eq_refl)) as [Hre _].
      destruct (reached_below e HE half cent Hhalf Hcent Hpat dir l Hl Hin name text Hn Hr _ Hre) as (f & t & Hf & _).
      rewrite E in Hf. destruct Hf.
    - intros N x b f Hb Hf. destruct (HB x b Hb) as [K _]. rewrite (proj2 (String.eqb_neq _ _) N) in K. cbn [orb] in K.
      unfold fits_all in K. rewrite Hf in K. apply fun_okb_ok. exact K.
    - intros HC starts NE HS.
      assert (K : forall t, occurs (map rd_before L) t -> plain_term name t).
      { intros t (x & b & Hb & Ht). destruct (HB x b Hb) as [_ K]. exact (all_in _ _ _ K Ht). }
      assert (M3 : String.prefix "g_t" (substring 0 16 (e_md5 e sf_pattern)) = false).
      { rewrite prefix_substring; [exact Hmd5|cbn; lia]. }
      assert (M4 : substring 0 16 (e_md5 e sf_pattern) <> GammaRule).
      { destruct HE as (_ & _ & H16 & _). specialize (H16 sf_pattern). intros C. apply (f_equal String.length) in C.
        rewrite substring_long in C by exact H16. change (String.length GammaRule) with 2 in C. discriminate C. }
      split; [exact HC|]. split.
      { intros t t' Ho Ho' Et Et' _. specialize (K t Ho) as K1. specialize (K t' Ho') as K2. unfold plain_term in K1, K2.
        rewrite Et in K1. rewrite Et' in K2. destruct K1, K2. congruence. }
      split.
      { intros t Ho Et Hp. exfalso. specialize (K t Ho). unfold plain_term in K. destruct Et as [Et|Et]; rewrite Et in K.
        - destruct K as [K|K]; [rewrite K in Hp; congruence|]. rewrite Hp in K. discriminate.
        - destruct K as [_ K]. rewrite K in Hp. discriminate. }
      split.
      { intros t Ho Et E. specialize (K t Ho). unfold plain_term in K. destruct (t_type t); try contradiction.
        - destruct K as [K|K]; [congruence|]. rewrite E in K. rewrite String.eqb_refl, andb_false_r in K. discriminate.
        - destruct K as [_ K]. rewrite K in E. discriminate.
        - destruct K as [_ K]. rewrite K in E. discriminate. }
      split.
      { intros t t' Ho Ho' Et Et'. specialize (K t Ho) as K1. specialize (K t' Ho') as K2. unfold plain_term in K1, K2.
        rewrite <- Et in K2. destruct Et' as [Ey|[Ey _]]; rewrite Ey in K1, K2; destruct K1, K2; congruence. }
      split.
      { split.
        - intros t ks Ho Et Ek. specialize (K t Ho). unfold plain_term in K. rewrite Et in K. destruct K as [_ K].
          apply (Htexts (t_value t)); [|exact Ek]. intros C. unfold blank in K. rewrite C in K. discriminate.
        - intros t Ho Et R. specialize (K t Ho). unfold plain_term in K. destruct Et as [Et|Et]; rewrite Et in K; destruct K as [K _].
          + rewrite K in R. unfold any_range in R. destruct (String.eqb name "sf.grammar"); cbn in R; lia.
          + rewrite K in R. cbn in R. lia. }
      split; [exact NE|]. intros S0 H0. destruct (HS S0 H0) as [A B]. split; [exact A|]. right. exact B.
  Qed.
End Usable.

Lemma shipped_usable e : env_ok e -> fractions_scan e -> e_regexp_ok e sf_pattern = true -> texts_have_tokens e ->
  String.prefix "g_t" (e_md5 e sf_pattern) = false ->
  forall l dir, In l shipped -> installed e dir l ->
  forall name text, In (name, text) l -> name <> rejected ->
  forall fuel depth gt g w', from_file e fuel depth (e_join e dir name) gt = Ret (Some g, w') ->
  exists L, e_parts e text g L /\ map rd_after L = all_rules g /\
    (below name = [] -> compatible L) /\
    (name <> "sf.grammar"%string -> functions_fit (map rd_before L)) /\
    (compatible L -> forall starts, starts <> [] ->
       (forall S, In S starts -> S <> GammaRule /\ String.prefix "g_t" S = false) -> usable (e_tokenize e) L starts).
Proof.
  intros HE [(half & Hh) (cent & Hc)] HP HT HM l dir Hl Hi name text Hn Hr fuel depth gt g w' E.
  exact (usable_file e HE half cent Hh Hc HP HT HM dir l Hl Hi name text Hn Hr fuel depth gt g w' E).
Qed.
