(** Proofs for SpecNames. *)
From Coq Require Import Ascii DecimalString.
From Verif Require Import Base ModelTypes ModelText ModelEarley ModelReader ModelGrammar
  SpecTypes SpecGrammar SpecNotation SpecRefine SpecConstruct SpecSem SpecEnd ModelShipped SpecShipped SpecNames ModelQuote
  ProofRefine ProofConstruct ProofUnique ProofLoads ProofShipped ProofShippedMain ProofShippedUsable ProofReadings.
Local Open Scope list_scope.

Lemma nodup_snd {A B} (l : list (A * B)) a b b' : NoDup (map fst l) -> In (a, b) l -> In (a, b') l -> b = b'.
Proof.
  induction l as [|[c d] l IH]; intros N; [intros []|]. cbn [map fst] in N. inversion N as [|? ? N1 N2]; subst.
  intros [H|H] [H'|H']; [congruence| | |auto]; exfalso; apply N1; apply in_map_iff.
  - exists (a, b'). split; [|exact H']. injection H as -> ->. reflexivity.
  - exists (a, b). split; [|exact H]. injection H' as -> ->. reflexivity.
Qed.

(** ** tables *)
Lemma apart_usual e d g L P R : e_parts e d g L -> names_apart (e_tokenize e) (e_ascii e) P R ->
  (forall v, terminal_text (map rd_before L) v -> P v) -> (forall x, rule_name (map rd_before L) x -> R x) ->
  forall p v x, In p L -> In (v, x) (rd_table p) -> P v /\ exists ks, e_tokenize e v = Ret ks /\ x = usual_name (e_ascii e) ks.
Proof.
  intros HL [A1 A2] HP HR p v x Hp Hx.
  assert (HV : forall v x, In (v, x) (rd_table p) -> P v).
  { intros v0 x0 H0. destruct (parts_refined _ _ _ _ _ _ _ _ _ d g L HL p Hp) as [(_ & _ & _ & _ & _ & K & _) _].
    destruct (K _ _ H0) as (toks & m & _ & O & _). apply HP. exists (rd_before p), m. split; [apply in_map; exact Hp|exact O]. }
  destruct (parts_refined _ _ _ _ _ _ _ _ _ d g L HL p Hp) as [(ND & _) _].
  pose proof (parts_named _ _ _ _ _ _ _ _ _ d g L HL p Hp) as HN.
  destruct (HN v x Hx) as (ks & k & K1 & K2 & K3). split; [exact (HV _ _ Hx)|]. exists ks. split; [exact K1|].
  destruct k as [|k]; [exact K2|]. exfalso. destruct (K3 0) as [C|C]; [lia| |]; cbn [numbered] in C.
  - apply (A2 v ks (HV _ _ Hx) K1). apply HR. exists (rd_before p). split; [apply in_map; exact Hp|exact C].
  - apply in_map_iff in C as ([v' y] & E & Hy). cbn [snd] in E. subst y.
    destruct (HN v' _ Hy) as (ks' & k' & K1' & K2' & _).
    pose proof (A1 v v' ks ks' k' (HV _ _ Hx) (HV _ _ Hy) K1 K1' K2') as <-.
    pose proof (nodup_snd _ _ _ _ ND Hx Hy) as E. rewrite E in K2.
    assert (C : S k = 0); [|discriminate C]. apply (candidate_inj (usual_name (e_ascii e) ks)). symmetry. exact K2.
Qed.
Lemma apart_compatible e d g L P R : e_parts e d g L -> names_apart (e_tokenize e) (e_ascii e) P R ->
  (forall v, terminal_text (map rd_before L) v -> P v) -> (forall x, rule_name (map rd_before L) x -> R x) -> compatible L.
Proof.
  intros HL HA HP HR. pose proof (apart_usual e d g L P R HL HA HP HR) as U. destruct HA as [A1 A2]. split.
  - intros x p (q & Hq & Hx) Hp. apply in_map_iff in Hx as ([v y] & E & Hx). cbn [snd] in E. subst y.
    destruct (U q v x Hq Hx) as (Hv & ks & K1 & ->).
    destruct (lookup (rd_before p) (usual_name (e_ascii e) ks)) eqn:E; [|reflexivity]. exfalso. apply (A2 v ks Hv K1). apply HR.
    exists (rd_before p). split; [apply in_map; exact Hp|congruence].
  - intros p q x v v' Hp Hq H1 H2. destruct (U p v x Hp H1) as (Hv & ks & K1 & ->). destruct (U q v' _ Hq H2) as (Hv' & ks' & K1' & E).
    exact (A1 v v' ks ks' 0 Hv Hv' K1 K1' E).
Qed.
Lemma names_of_files e : env_ok e -> forall fuel depth file gt g w', from_file e fuel depth file gt = Ret (Some g, w') ->
  exists text, e_read e file = Ret text /\ exists L, e_parts e text g L /\ map rd_after L = all_rules g /\
  forall p, In p L -> forall v x, In (v, x) (rd_table p) ->
    lookup (rd_before p) x = None /\
    exists ks k, e_tokenize e v = Ret ks /\ x = numbered (usual_name (e_ascii e) ks) k /\
      forall j, j < k -> lookup (rd_before p) (numbered (usual_name (e_ascii e) ks) j) <> None \/
        exists v', v' <> v /\ In (v', numbered (usual_name (e_ascii e) ks) j) (rd_table p).
Proof.
  intros HE fuel depth file gt g w' E. destruct (file_fresh e HE _ _ _ _ _ _ E) as (text & Hr & L & HL & HA).
  exists text. split; [exact Hr|]. exists L. split; [exact HL|]. split; [exact HA|]. intros p Hp v x Hx.
  destruct (parts_refined _ _ _ _ _ _ _ _ _ text g L HL p Hp) as [(ND & _ & _ & N & _) _].
  split; [apply N, in_map_iff; exists (v, x); auto|].
  destruct (parts_named _ _ _ _ _ _ _ _ _ text g L HL p Hp v x Hx) as (ks & k & K1 & K2 & K3).
  exists ks, k. split; [exact K1|]. split; [exact K2|]. intros j Hj. destruct (K3 j Hj) as [C|C]; [left; exact C|right].
  apply in_map_iff in C as ([v' y] & E' & Hy). cbn [snd] in E'. subst y. exists v'. split; [|exact Hy]. intros ->.
  pose proof (nodup_snd _ _ _ _ ND Hx Hy) as E'. rewrite K2 in E'. apply (candidate_inj (usual_name (e_ascii e) ks)) in E'. lia.
Qed.
Lemma apart_language e d g L tmatch toks x i j : e_parts e d g L ->
  names_apart (e_tokenize e) (e_ascii e) (terminal_text (map rd_before L)) (rule_name (map rd_before L)) ->
  uniform_flags (map rd_before L) -> no_dangling "g_t" (map rd_before L) -> (exists m, In m (map rd_before L) /\ lookup m x <> None) ->
  (Derives tmatch (all_rules g) toks (nonterm x) i j <->
   DerivesSplit (e_tokenize e) tmatch (map rd_before L) toks (nonterm x) i j).
Proof. intros HL HA. apply (env_language e d); [exact HL|]. eapply apart_compatible; eauto. Qed.
Lemma usual_prefix ascii ks : String.prefix "g_t" (usual_name ascii ks) = true.
Proof. unfold usual_name. rewrite concat_cons. apply prefix_app. Qed.

Lemma apart_names e d g L : e_parts e d g L ->
  names_apart (e_tokenize e) (e_ascii e) (terminal_text (map rd_before L)) (rule_name (map rd_before L)) ->
  compatible L /\ forall p v x, In p L -> In (v, x) (rd_table p) -> exists ks, e_tokenize e v = Ret ks /\ x = usual_name (e_ascii e) ks.
Proof.
  intros HL HA. split; [eapply apart_compatible; eauto|]. intros p v x Hp Hx.
  exact (proj2 (apart_usual e d g L _ _ HL HA (fun v H => H) (fun x H => H) p v x Hp Hx)).
Qed.

(** ** the rules of a loaded grammar are those of the files *)
Section Files.
  Variable e : env.
  Hypothesis HE : env_ok e.
  Variables (file dir T : string) (fuel depth : nat) (gt : list (string * token)) (g : grammar) (w' : world).
  Hypothesis Hread : e_read e file = Ret T.
  Hypothesis Habs : e_abs e file = Ret dir.
  Hypothesis Hload : from_file e fuel depth file gt = Ret (Some g, w').

  Lemma denoted its rules x b : denotes (e_hash e) its false rules -> has_body [rules] x b -> In b (written its false x).
  Proof using Type.
    intros (_ & D2 & D3) (m & r & h & [<-|[]] & Hx & Hb). destruct (D3 x) as (r' & L' & _ & N' & H').
    { intros C. apply D2 in C. rewrite Hx in C. discriminate. }
    rewrite Hx in L'. injection L' as <-. pose proof (lookup_N_in _ _ _ N' Hb) as E. rewrite H' in E.
    apply find_some in E as [E _]. rewrite <- in_rev in E. exact E.
  Qed.
  Lemma denoted_back its rules x b : denotes (e_hash e) its false rules ->
    (forall b', In b' (written its false x) -> e_hash e b' = e_hash e b -> b' = b) -> In b (written its false x) -> has_body [rules] x b.
  Proof using Type.
    intros (_ & D2 & D3) ND Hb. assert (NE : written its false x <> []) by (intros C; rewrite C in Hb; destruct Hb).
    destruct (D3 _ NE) as (r & L' & _ & N' & H'). exists rules, r, (e_hash e b). split; [left; reflexivity|]. split; [exact L'|].
    specialize (H' (e_hash e b)). destruct (find _ (rev (written its false x))) as [b'|] eqn:E.
    - apply find_some in E as [E1 E2]. apply N.eqb_eq in E2. rewrite <- in_rev in E1.
      assert (b' = b) as -> by (apply ND; auto). apply ProofIndex.lookup_N_some. exact H'.
    - exfalso. assert (H : In b (rev (written its false x))) by (rewrite <- in_rev; exact Hb).
      pose proof (find_none _ _ E b H) as C. cbn beta in C. rewrite N.eqb_refl in C. discriminate.
  Qed.
  Lemma parts_files L : e_parts e T g L -> forall p, In p L -> exists text ps its re, file_among e T dir text /\ e_text e text ps its re /\
    denotes (e_hash e) its false (rd_before p).
  Proof using HE Hread Habs Hload.
    intros (p & ps & -> & _ & (ps0 & its & re & T' & _ & D & _) & F) q [<-|Hq].
    - exists T, ps0, its, re. split; [left; reflexivity|auto].
    - destruct (env_file_files e HE fuel depth _ gt _ w' Hload) as (g0 & b & dir' & E0 & Hr & Hd & _ & _ & Hi & _).
      injection E0 as <-. rewrite Hread in Hr. injection Hr as <-. rewrite Habs in Hd. injection Hd as <-.
      assert (K : forall ig, In ig (g_includes g) -> e_reached e T dir (g_name ig)).
      { intros ig Hig. apply Hi. apply in_map. exact Hig. }
      clear - F Hq K. induction F as [|ig q' igs ps [_ H] F IH]; [destruct Hq|]. destruct Hq as [->|Hq].
      + destruct H as (b & Rb & ps1 & its1 & re1 & T1 & _ & D1 & _). exists b, ps1, its1, re1. split; [|auto].
        right. exists (g_name ig). split; [apply K; left; reflexivity|exact Rb].
      + apply (IH Hq). intros ig' H'. apply K. right. exact H'.
  Qed.
  Lemma parts_cover L : e_parts e T g L -> forall text, file_among e T dir text -> exists p ps its re, In p L /\ e_text e text ps its re /\
    denotes (e_hash e) its false (rd_before p).
  Proof using HE Hread Habs Hload.
    intros (p & ps & -> & _ & (ps0 & its & re & T' & _ & D & _) & F) text Ht.
    assert (KT : exists p' ps' its re, In p' (p :: ps) /\ e_text e T ps' its re /\ denotes (e_hash e) its false (rd_before p')).
    { exists p, ps0, its, re. split; [left; reflexivity|auto]. }
    destruct Ht as [->|(f & Hf & Rf)]; [exact KT|].
    destruct (string_dec f file) as [->|NE]; [rewrite Hread in Rf; injection Rf as <-; exact KT|].
    destruct (env_file_files e HE fuel depth _ gt _ w' Hload) as (g0 & b & dir' & E0 & Hr & Hd & _ & _ & Hi & _).
    injection E0 as <-. rewrite Hread in Hr. injection Hr as <-. rewrite Habs in Hd. injection Hd as <-.
    pose proof (proj2 (Hi f) (conj Hf NE)) as Hg. apply in_map_iff in Hg as (ig & <- & Hg). clear KT Hi.
    assert (K : exists q, In q ps /\ exists b, e_read e (g_name ig) = Ret b /\ exists ps' its re, e_text e b ps' its re /\ denotes (e_hash e) its false (rd_before q)).
    { clear - F Hg. induction F as [|ig' q' igs ps [_ H] F IH]; [destruct Hg|]. destruct Hg as [->|Hg].
      - destruct H as (b & Rb & ps1 & its1 & re1 & T1 & _ & D1 & _). exists q'. split; [left; reflexivity|]. exists b. split; [exact Rb|]. eauto.
      - destruct (IH Hg) as (q & Hq & K). exists q. split; [right; exact Hq|exact K]. }
    destruct K as (q & Hq & b & Rb & ps1 & its1 & re1 & T1 & D1). rewrite Rf in Rb. injection Rb as <-.
    exists q, ps1, its1, re1. split; [right; exact Hq|auto].
  Qed.

  Lemma files_rules L : e_parts e T g L ->
    (forall x b, has_body (map rd_before L) x b -> exists text, file_among e T dir text /\ alternative_in e text x b) /\
    (forall text x b, file_among e T dir text -> alternative_in e text x b ->
       (forall b', alternative_in e text x b' -> e_hash e b' = e_hash e b -> b' = b) -> has_body (map rd_before L) x b).
  Proof using HE Hread Habs Hload.
    intros HL. split.
    - intros x b (m & r & h & Hm & Hx & Hb). apply in_map_iff in Hm as (p & <- & Hp).
      destruct (parts_files L HL p Hp) as (text & ps & its & re & Ht & Te & D). exists text. split; [exact Ht|].
      exists ps, its, re. split; [exact Te|]. apply (denoted _ _ _ _ D). exists (rd_before p), r, h. split; [left; reflexivity|auto].
    - intros text x b Ht (ps0 & its0 & re0 & T0 & Hb) ND. destruct (parts_cover L HL text Ht) as (p & ps & its & re & Hp & Te & D).
      destruct (one_reading e HE _ _ _ _ _ _ _ T0 Te) as (_ & W & _).
      destruct (denoted_back _ _ x b D) as (m & r & h & [<-|[]] & Hx & Hh).
      + intros b' Hb'. apply ND. exists ps, its, re. auto.
      + apply W. exact Hb.
      + exists (rd_before p), r, h. split; [apply in_map; exact Hp|auto].
  Qed.
End Files.

(** ** the files of the repository *)
Section ShippedNames.
  Variable e : env.
  Hypothesis HE : env_ok e.
  Variables half cent : bigf.
  Hypothesis Hhalf : e_scan e "0.5" = Ret half.
  Hypothesis Hcent : e_scan e "0.01" = Ret cent.
  Hypothesis Hpat : e_regexp_ok e sf_pattern = true.

  Definition dir_names (l : list (string * string)) : Prop :=
    all (fun nt => all (fun it => String.prefix "g_t" (it_name it) = false) (items_of e half cent (snd nt))) l.
  Lemma dirs_names : all dir_names shipped.
  Proof using Type. vm_compute. repeat split. Qed.
  Lemma shipped_alternative l name text x b : In l shipped -> In (name, text) l -> name <> rejected ->
    alternative_in e text x b -> exists it, In it (items_of e half cent text) /\ it_frame it = false /\ it_name it = x /\ In b (it_bodies it).
  Proof using HE Hhalf Hcent Hpat.
    intros Hl Hn Hr (ps & its & re & HT & E).
    pose proof dirs_ok as K. specialize (K e half cent). rewrite forallb_forall in K. specialize (K l Hl). unfold dir_ok in K.
    rewrite forallb_forall in K. specialize (K _ Hn). cbn [fst snd] in K.
    apply orb_true_iff in K as [K|K]; [apply String.eqb_eq in K; contradiction|].
    apply andb_true_iff in K as [K1 K2]. unfold paths in K2. unfold items_of. destruct (parse e half cent text) as [[[ps' its'] re']|] eqn:P; [|discriminate].
    pose proof (parsed e HE half cent Hhalf Hcent Hpat _ _ _ _ K1 P) as HT'.
    destruct (one_reading e HE _ _ _ _ _ _ _ HT HT') as (_ & W & _).
    apply W in E. unfold written in E. apply in_flat_map in E as (it & Hit & E). destruct (it_frame it) eqn:F; [destruct E|]. cbn [Bool.eqb andb] in E.
    destruct (String.eqb (it_name it) x) eqn:Ex; [|destruct E]. apply String.eqb_eq in Ex. exists it. auto.
  Qed.
  Lemma shipped_alternative_back l name text it b : In l shipped -> In (name, text) l -> name <> rejected ->
    In it (items_of e half cent text) -> it_frame it = false -> In b (it_bodies it) -> alternative_in e text (it_name it) b.
  Proof using HE Hhalf Hcent Hpat.
    intros Hl Hn Hr Hit F Hb.
    pose proof dirs_ok as K. specialize (K e half cent). rewrite forallb_forall in K. specialize (K l Hl). unfold dir_ok in K.
    rewrite forallb_forall in K. specialize (K _ Hn). cbn [fst snd] in K.
    apply orb_true_iff in K as [K|K]; [apply String.eqb_eq in K; contradiction|].
    apply andb_true_iff in K as [K1 K2]. unfold items_of in Hit. destruct (parse e half cent text) as [[[ps its] re]|] eqn:P; [|destruct Hit].
    pose proof (parsed e HE half cent Hhalf Hcent Hpat _ _ _ _ K1 P) as HT.
    exists ps, its, re. split; [exact HT|]. unfold written. apply in_flat_map. exists it. split; [exact Hit|].
    rewrite F, String.eqb_refl. exact Hb.
  Qed.
  Lemma shipped_name l name text x b : In l shipped -> In (name, text) l -> name <> rejected ->
    alternative_in e text x b -> String.prefix "g_t" x = false.
  Proof using HE Hhalf Hcent Hpat.
    intros Hl Hn Hr H. destruct (shipped_alternative l name text x b Hl Hn Hr H) as (it & Hit & _ & <- & _).
    pose proof (all_in _ _ _ (all_in _ _ _ dirs_names Hl) Hn) as A. exact (all_in _ _ _ A Hit).
  Qed.
  (** the terminal texts of a file *)
  Definition texts_in (text : string) : list string :=
    flat_map (fun it => flat_map (fun b => flat_map (fun t => match t_type t with TTerminal => [t_value t] | _ => [] end) (rb_terms b)) (it_bodies it))
      (items_of e half cent text).
  Lemma shipped_texts l name v : In l shipped -> (forall f, f = name \/ In f (below name) -> f <> rejected) -> shipped_text e l name v ->
    exists f text, (f = name \/ In f (below name)) /\ In (f, text) l /\ In v (texts_in text).
  Proof using HE Hhalf Hcent Hpat.
    intros Hl Hr (f & text & x & b & t & Hf & Ht & Ha & Hb & Ty & Tv). exists f, text. split; [exact Hf|]. split; [exact Ht|].
    destruct (shipped_alternative l f text x b Hl Ht (Hr f Hf) Ha) as (it & Hit & _ & _ & Hi).
    apply in_flat_map. exists it. split; [exact Hit|]. apply in_flat_map. exists b. split; [exact Hi|]. apply in_flat_map. exists t. split; [exact Hb|].
    rewrite Ty. left. exact Tv.
  Qed.
End ShippedNames.

Lemma shipped_apart e : env_ok e -> fractions_scan e -> e_regexp_ok e sf_pattern = true -> texts_have_tokens e ->
  String.prefix "g_t" (e_md5 e sf_pattern) = false ->
  forall l dir, In l shipped -> installed e dir l ->
  forall name text, In (name, text) l -> name <> rejected -> spelled_apart (e_tokenize e) (e_ascii e) (shipped_text e l name) ->
  forall fuel depth gt g w', from_file e fuel depth (e_join e dir name) gt = Ret (Some g, w') ->
  exists L, e_parts e text g L /\ map rd_after L = all_rules g /\ compatible L /\
    (name <> "sf.grammar"%string -> functions_fit (map rd_before L)) /\
    (forall starts, starts <> [] ->
       (forall S, In S starts -> S <> GammaRule /\ String.prefix "g_t" S = false) -> usable (e_tokenize e) L starts) /\
    names_apart (e_tokenize e) (e_ascii e) (terminal_text (map rd_before L)) (rule_name (map rd_before L)).
Proof.
  intros HE HF HP HT HM l dir Hl Hi name text Hn Hr HA fuel depth gt g w' E.
  destruct (shipped_usable e HE HF HP HT HM l dir Hl Hi name text Hn Hr fuel depth gt g w' E) as (L & HL & HR & HC & Hfit & HU).
  destruct (Hi _ _ Hn) as [R1 R2]. destruct (files_rules e HE _ _ _ _ _ _ _ _ R1 R2 E L HL) as [K1 K2].
  exists L. split; [exact HL|]. split; [exact HR|].
  destruct HF as [(half & Hh) (cent & Hc)].
  assert (Among : forall tx, file_among e text dir tx -> exists f, (f = name \/ In f (below name)) /\ In (f, tx) l /\ f <> rejected).
  { intros tx [->|(f & Hf & Rf)]; [exists name; auto|].
    destruct (reached_below e HE half cent Hh Hc HP dir l Hl Hi name text Hn Hr f Hf) as (q & t & H1 & H2 & H3 & ->).
    destruct (Hi _ _ H2) as [R3 _]. rewrite R3 in Rf. injection Rf as <-. exists q. auto. }
  assert (A1 : forall v, terminal_text (map rd_before L) v -> shipped_text e l name v).
  { intros v (m & mt & Hm & t & (x & b & (m' & r & h & [<-|[]] & Hx & Hb) & Ht) & Ty & Tv & _).
    destruct (K1 x b) as (tx & Ha & Hw); [exists m, r, h; auto|]. destruct (Among tx Ha) as (f & F1 & F2 & _).
    exists f, tx, x, b, t. auto 10. }
  assert (A2 : forall x, rule_name (map rd_before L) x -> String.prefix "g_t" x = false).
  { intros x (m & Hm & Hx). apply in_map_iff in Hm as (p & <- & Hp).
    destruct (parts_files e HE _ _ _ _ _ _ _ _ R1 R2 E L HL p Hp) as (tx & ps & its & re & Ht & Te & D1 & D2 & D3).
    destruct (written its false x) as [|b bs] eqn:W; [exfalso; apply Hx; apply D2; exact W|].
    destruct (Among tx Ht) as (f & _ & F2 & F3).
    apply (shipped_name e HE half cent Hh Hc HP l f tx x b Hl F2 F3). exists ps, its, re. split; [exact Te|rewrite W; left; reflexivity]. }
  assert (A3 : names_apart (e_tokenize e) (e_ascii e) (terminal_text (map rd_before L)) (rule_name (map rd_before L))).
  { split; [intros v v' ks ks' j Hv Hv'; apply HA; auto|]. intros v ks _ _ R. apply A2 in R. rewrite usual_prefix in R. discriminate. }
  assert (C : compatible L) by (apply (apart_compatible e text g L _ _ HL A3); auto).
  split; [exact C|]. split; [exact Hfit|]. split; [apply HU; exact C|exact A3].
Qed.

(** ** a check *)
Fixpoint last_char (s : string) : option ascii :=
  match s with EmptyString => None | String c s' => match last_char s' with Some d => Some d | None => Some c end end.
Definition ends_in_digit (s : string) : bool :=
  match last_char s with Some c => (48 <=? nat_of_ascii c)%nat && (nat_of_ascii c <=? 57)%nat | None => false end.
Lemma last_char_app a b : b <> ""%string -> last_char (a ++ b) = last_char b.
Proof.
  intros Hb. induction a as [|c a IH]; [reflexivity|]. cbn [append last_char]. rewrite IH.
  destruct (last_char b) eqn:E; [reflexivity|]. exfalso. destruct b as [|d b]; [contradiction|]. cbn in E. destruct (last_char b); discriminate.
Qed.
Lemma uint_last d : forall c, last_char (NilEmpty.string_of_uint d) = Some c -> (48 <= nat_of_ascii c <= 57)%nat.
Proof.
  induction d; intros c; cbn [NilEmpty.string_of_uint last_char]; try discriminate;
    (destruct (last_char (NilEmpty.string_of_uint d)) eqn:E; [intros [= <-]; apply IHd; reflexivity|intros [= <-]; cbv; lia]).
Qed.
Lemma dec_ends n : ends_in_digit (dec_N n) = true /\ dec_N n <> ""%string.
Proof.
  assert (K : dec_N n <> ""%string) by (unfold dec_N, NilZero.string_of_uint; destruct (N.to_uint n); discriminate).
  split; [|exact K]. unfold ends_in_digit. destruct (last_char (dec_N n)) as [c|] eqn:E.
  - assert (B : (48 <= nat_of_ascii c <= 57)%nat).
    { unfold dec_N, NilZero.string_of_uint in E. destruct (N.to_uint n) eqn:Eu; try (apply (uint_last (N.to_uint n)); rewrite Eu; exact E).
      injection E as <-. cbv. lia. }
    apply andb_true_iff. split; apply Nat.leb_le; lia.
  - exfalso. destruct (dec_N n) as [|d b]; [contradiction|]. cbn in E. destruct (last_char b); discriminate.
Qed.
Lemma numbered_ends x k : ends_in_digit (numbered x k) = false -> k = 0.
Proof.
  destruct k as [|i]; [reflexivity|]. cbn [numbered]. destruct (dec_ends (N.of_nat i)) as [D N]. unfold dec_N in *. intros E. exfalso.
  unfold ends_in_digit in *. rewrite last_char_app in E by discriminate. rewrite last_char_app in E by exact N. congruence.
Qed.
Definition name_of (tokenize : string -> res (list token)) (ascii : string -> string) (v : string) : option string :=
  match tokenize v with Ret ks => Some (usual_name ascii ks) | _ => None end.
Definition apart_check tokenize ascii (l : list string) : bool :=
  forallb (fun v => match name_of tokenize ascii v with
                    | Some x => negb (ends_in_digit x) &&
                        forallb (fun v' => match name_of tokenize ascii v' with Some y => negb (String.eqb x y) || String.eqb v v' | None => true end) l
                    | None => true end) l.
Lemma apart_checked tokenize ascii l : apart_check tokenize ascii l = true -> spelled_apart tokenize ascii (fun v => In v l).
Proof.
  intros H v v' ks ks' j Hv Hv' E E' En. unfold apart_check in H. rewrite forallb_forall in H. specialize (H v Hv).
  unfold name_of at 1 in H. rewrite E in H. apply andb_true_iff in H as [H1 H2]. apply negb_true_iff in H1.
  rewrite forallb_forall in H2. specialize (H2 v' Hv'). unfold name_of in H2. rewrite E' in H2.
  rewrite En in H1. apply numbered_ends in H1. subst j. cbn [numbered] in En. rewrite En, String.eqb_refl in H2. cbn [negb orb] in H2.
  apply String.eqb_eq. exact H2.
Qed.
