(** The shipped grammar files: they are texts of the notation, or rejected. *)
From Verif Require Import Base ModelTypes ModelText ModelEarley ModelReader ModelGrammar
  SpecGrammar SpecNotation SpecRefine SpecConstruct SpecSem ModelShipped SpecShipped ProofRefine ProofGrammar ProofConstruct ProofRecognize ProofLoads.

Fixpoint decode (n : nat) (s : string) : list rune :=
  match n with
  | O => []
  | S n' => match s with EmptyString => [] | _ => let '(r, k) := decode_rune s in r :: decode n' (drop k s) end
  end.
Definition runes_of (s : string) : list rune := decode (String.length s) s.
Definition good_b (r : rune) : bool := valid_rune r && negb (Z.eqb r RuneError).
Definition decodes (s : string) : bool := forallb good_b (runes_of s) && String.eqb (encode (runes_of s)) s.
Lemma decodes_ok s : decodes s = true -> Forall good (runes_of s) /\ s = encode (runes_of s).
Proof.
  unfold decodes. intros H. apply andb_true_iff in H as [H1 H2]. apply String.eqb_eq in H2. split; [|auto].
  apply Forall_forall. intros r Hr. rewrite forallb_forall in H1. specialize (H1 r Hr). unfold good_b in H1.
  apply andb_true_iff in H1 as [A B]. split; [exact A|]. intros ->. discriminate B.
Qed.

Section Texts.
  Variable e : env.
  Hypothesis HE : env_ok e.
  Variables half cent : bigf.
  Hypothesis Hhalf : e_scan e "0.5" = Ret half.
  Hypothesis Hcent : e_scan e "0.01" = Ret cent.
  Hypothesis Hpat : e_regexp_ok e sf_pattern = true.

  Definition fractions : list (string * bigf) := [("0.5", half); ("0.01", cent)]%string.
  Definition patterns : list (string * string) := [(sf_pattern, substring 0 16 (e_md5 e sf_pattern))].
  Definition parse (text : string) := p_file fractions patterns 10 (runes_of text).

  Lemma letters_ascii c : a_letter c = true -> is_letter (e_letter e) c = true.
  Proof. unfold a_letter, is_letter. intros H. apply orb_true_iff in H as [H|H]; rewrite H; rewrite ?orb_true_r; reflexivity. Qed.
  Lemma digits_ascii c : a_digit c = true -> is_digit (e_digit e) c = true.
  Proof. unfold a_digit, is_digit, ascii_digit. intros ->. reflexivity. Qed.

  Lemma parsed text ps its re : decodes text = true -> parse text = Some (ps, its, re) -> e_text e text ps its re.
  Proof using HE Hhalf Hcent Hpat.
    intros D H. apply decodes_ok in D as [D1 D2]. left. exists (runes_of text). split; [exact D1|]. split; [exact D2|].
    revert H. apply sound_file.
    - exact letters_ascii.
    - exact digits_ascii.
    - intros s f [[= <- <-]|[[= <- <-]|[]]]; assumption.
    - intros x h [[= <- <-]|[]]. destruct HE as (_ & _ & H3 & _). auto.
  Qed.

  Definition mem (x : string) (l : list string) : bool := existsb (String.eqb x) l.
  Lemma mem_in x l : mem x l = true -> In x l.
  Proof. unfold mem. rewrite existsb_exists. intros (y & Hy & E). apply String.eqb_eq in E. subst y. exact Hy. Qed.
  Definition paths (text : string) : option (list string) := match parse text with Some (ps, _, _) => Some ps | None => None end.
  (** every file but the rejected one is a text, and includes other such files only *)
  Definition dir_ok (l : list (string * string)) : bool :=
    forallb (fun nt => String.eqb (fst nt) rejected ||
      (decodes (snd nt) &&
       match paths (snd nt) with
       | Some ps => forallb (fun p => negb (String.eqb p rejected) && mem p (map fst l) && mem p (below (fst nt)) &&
                                      forallb (fun q => mem q (below (fst nt))) (below p)) ps &&
                    forallb (fun q => mem q (map fst l) && negb (String.eqb q rejected) &&
                                      forallb (fun r => mem r (below (fst nt))) (below q) &&
                                      existsb (fun p => String.eqb p q || (mem q (below p) && Nat.ltb (length (below p)) (length (below (fst nt))))) ps)
                      (below (fst nt))
       | None => false
       end)) l.
  Lemma dirs_ok : forallb dir_ok shipped = true.
  Proof. vm_compute. reflexivity. Qed.

  Lemma in_fst (l : list (string * string)) p : In p (map fst l) -> exists t, In (p, t) l.
  Proof. intros H. apply in_map_iff in H as ((q, t) & <- & H). eauto. Qed.
  Lemma paths_text text ps : decodes text = true -> paths text = Some ps -> exists its re, e_text e text ps its re.
  Proof using HE Hhalf Hcent Hpat.
    unfold paths. intros D H. destruct (parse text) as [[[ps' its] re]|] eqn:P; [|discriminate]. injection H as ->.
    exists its, re. exact (parsed _ _ _ _ D P).
  Qed.
  Lemma file_facts l name text : In l shipped -> In (name, text) l -> name <> rejected ->
    exists ps its re, e_text e text ps its re /\
      (forall p, In p ps -> p <> rejected /\ (exists t, In (p, t) l) /\ In p (below name) /\ incl (below p) (below name)) /\
      (forall q, In q (below name) -> (exists t, In (q, t) l) /\ q <> rejected /\ incl (below q) (below name) /\
         exists p, In p ps /\ (p = q \/ In q (below p) /\ length (below p) < length (below name))).
  Proof using HE Hhalf Hcent Hpat.
    intros Hl Hn Hr. pose proof dirs_ok as D. rewrite forallb_forall in D. specialize (D l Hl). unfold dir_ok in D.
    rewrite forallb_forall in D. specialize (D _ Hn). cbn [fst snd] in D.
    apply orb_true_iff in D as [D|D]; [apply String.eqb_eq in D; contradiction|].
    apply andb_true_iff in D as [D1 D2]. destruct (paths text) as [ps|] eqn:P; [|discriminate].
    destruct (paths_text _ _ D1 P) as (its & re & T). exists ps, its, re. split; [exact T|].
    apply andb_true_iff in D2 as [D2 D3]. rewrite forallb_forall in D2, D3.
    assert (NR : forall q, negb (String.eqb q rejected) = true -> q <> rejected).
    { intros q H ->. rewrite String.eqb_refl in H. discriminate. }
    split.
    - intros p Hp. specialize (D2 p Hp). apply andb_true_iff in D2 as [D2 C4]. apply andb_true_iff in D2 as [D2 C3].
      apply andb_true_iff in D2 as [C1 C2]. repeat split; [apply NR; exact C1|apply in_fst, mem_in; exact C2|apply mem_in; exact C3|].
      intros q Hq. rewrite forallb_forall in C4. apply mem_in. auto.
    - intros q Hq. specialize (D3 q Hq). apply andb_true_iff in D3 as [D3 C4]. apply andb_true_iff in D3 as [D3 C3].
      apply andb_true_iff in D3 as [C1 C2]. repeat split; [apply in_fst, mem_in; exact C1|apply NR; exact C2| |].
      + intros r Hrr. rewrite forallb_forall in C3. apply mem_in. auto.
      + apply existsb_exists in C4 as (p & Hp & C4). exists p. split; [exact Hp|].
        apply orb_true_iff in C4 as [C4|C4]; [left; apply String.eqb_eq; exact C4|].
        apply andb_true_iff in C4 as [C4 C5]. right. split; [apply mem_in; exact C4|]. apply Nat.ltb_lt. exact C5.
  Qed.

  Section Installed.
    Variables (dir : string) (l : list (string * string)).
    Hypothesis Hl : In l shipped.
    Hypothesis Hin : installed e dir l.

    Lemma reached_below name text : In (name, text) l -> name <> rejected ->
      forall f, e_reached e text dir f -> exists q t, In q (below name) /\ In (q, t) l /\ q <> rejected /\ f = e_join e dir q.
    Proof using HE Hhalf Hcent Hpat Hl Hin.
      intros Hn Hr. destruct (file_facts _ _ _ Hl Hn Hr) as (ps & its & re & T & F1 & F2).
      apply (reached_within e HE _ _ _ ps its re T).
      - intros p Hp. destruct (F1 p Hp) as (A & (t & B) & C & _). exists p, t. auto.
      - intros f (q & t & H1 & H2 & H3 & ->). destruct (file_facts _ _ _ Hl H2 H3) as (ps' & its' & re' & T' & G1 & _).
        destruct (Hin _ _ H2) as [E1 E2]. exists t, dir, ps', its', re'. split; [exact E1|]. split; [exact E2|]. split; [exact T'|].
        intros p Hp. destruct (G1 p Hp) as (A & (t' & B) & C & _). exists p, t'.
        split; [|auto]. destruct (F2 q H1) as (_ & _ & I & _). exact (I _ C).
    Qed.
    Lemma below_reached n : forall name text, length (below name) <= n -> In (name, text) l -> name <> rejected ->
      forall q, In q (below name) -> e_reached e text dir (e_join e dir q).
    Proof using HE Hhalf Hcent Hpat Hl Hin.
      induction n as [|n IH]; intros name text Hlen Hn Hr q Hq; [destruct (below name); [destruct Hq|cbn in Hlen; lia]|].
      destruct (file_facts _ _ _ Hl Hn Hr) as (ps & its & re & T & F1 & F2).
      destruct (F2 q Hq) as (_ & _ & _ & p & Hp & [->|[Hqp L]]).
      - eapply re_direct; eassumption.
      - destruct (F1 p Hp) as (A & (t & B) & C & _). destruct (Hin _ _ B) as [E1 E2].
        eapply reached_trans; [eapply re_direct; [exact T|exact Hp]|exact E1|exact E2|]. apply (IH p t); [lia|exact B|exact A|exact Hqp].
    Qed.
    Lemma loads name text : In (name, text) l -> name <> rejected -> tools_work e -> forall gt,
      exists g w' n, forall fuel depth, n <= fuel -> n <= depth ->
    from_file e fuel depth (e_join e dir name) gt = Ret (Some g, w').
    Proof using HE Hhalf Hcent Hpat Hl Hin.
      intros Hn Hr [Htrie Htk] gt. destruct (file_facts _ _ _ Hl Hn Hr) as (ps & its & re & T & F1 & F2).
      destruct (Hin _ _ Hn) as [E1 E2].
      apply (env_file_loads e HE Htrie Htk (map (fun nt => e_join e dir (fst nt)) l) _ _ _ ps its re gt E1 E2 T).
      intros f Hf. destruct (reached_below _ _ Hn Hr f Hf) as (q & t & H1 & H2 & H3 & ->). split.
      - apply in_map_iff. exists (q, t). auto.
      - destruct (file_facts _ _ _ Hl H2 H3) as (ps' & its' & re' & T' & _). destruct (Hin _ _ H2) as [G1 G2]. exists t, dir, ps', its', re'. auto.
    Qed.
  End Installed.

  (** *** functions fit, names are defined *)
  Fixpoint fun_okb (n : nat) (f : fmr) : bool :=
    match f with
    | FMR fn args => (negb (String.eqb fn "nf.I") || Nat.eqb (length args) 1) &&
        (fix go l := match l with
                     | [] => true
                     | Arg ty v :: l' =>
                         match v with
                         | VStr _ => String.eqb ty "string"
                         | VInt _ => String.eqb ty "int"
                         | VFloat _ => String.eqb ty "float"
                         | VIdx i => String.eqb ty "index" && Z.leb 0 i && Z.leb i (Z.of_nat n)
                         | VFunc g => String.eqb ty "func" && fun_okb n g
                         | VOther _ => false
                         end && go l'
                     end) args
    end.
  Lemma fun_okb_ok n : forall f, fun_okb n f = true -> fun_ok n f.
  Proof using Type.
    fix IH 1. intros [fn args] H. cbn [fun_okb] in H. apply andb_true_iff in H as [H1 H2]. constructor.
    - intros ->. rewrite String.eqb_refl in H1. cbn in H1. apply Nat.eqb_eq. exact H1.
    - clear H1. induction args as [|[ty v] args IHa]; [constructor|]. apply andb_true_iff in H2 as [H2 H3]. constructor; [|exact (IHa H3)].
      clear IHa H3. destruct v as [s|z|f|i|f|tag].
      + apply String.eqb_eq in H2. subst ty. constructor.
      + apply String.eqb_eq in H2. subst ty. constructor.
      + apply String.eqb_eq in H2. subst ty. constructor.
      + apply andb_true_iff in H2 as [H2 H3]. apply andb_true_iff in H2 as [H2 H4]. apply String.eqb_eq in H2. subst ty. constructor. lia.
      + apply andb_true_iff in H2 as [H2 H3]. apply String.eqb_eq in H2. subst ty. constructor. apply IH. exact H3.
      + discriminate H2.
  Qed.
  Definition is_entity (f : fmr) : bool :=
    match f with
    | FMR fn [Arg ty (VStr s)] => String.eqb fn "fmr.entity" && String.eqb ty "context" && String.eqb s "@"
    | _ => false
    end.
  Lemma is_entity_ok f : is_entity f = true -> f = entity_function.
  Proof using Type.
    destruct f as [fn [|[ty [s| | | | |]] [|]]]; try discriminate. cbn. intros H. apply andb_true_iff in H as [H H3].
    apply andb_true_iff in H as [H1 H2]. apply String.eqb_eq in H1, H2, H3. subst. reflexivity.
  Qed.
  Definition fits (b : rulebody) : bool := match rb_f b with Some f => is_entity f || fun_okb (length (rb_terms b)) f | None => true end.
  Definition items_of (text : string) : list item := match parse text with Some (_, its, _) => its | None => [] end.
  Definition names_of (text : string) : list string := map it_name (filter (fun it => negb (it_frame it)) (items_of text)).
  Definition text_in (l : list (string * string)) (name : string) : string :=
    match lookup l name with Some t => t | None => "" end.
  Definition known (l : list (string * string)) (name text : string) : list string :=
    names_of text ++ flat_map (fun q => names_of (text_in l q)) (below name).
  Definition term_known (known : list string) (t : term) : Prop :=
    match t_type t with
    | TNonterminal => t_value t = substring 0 16 (e_md5 e sf_pattern) \/ mem (t_value t) (["numeric"; "digits"; "letters"]%string ++ known) = true
    | _ => True
    end.
  Fixpoint all {A} (P : A -> Prop) (l : list A) : Prop := match l with [] => True | x :: l' => P x /\ all P l' end.
  Lemma all_in {A} (P : A -> Prop) l x : all P l -> In x l -> P x.
  Proof using Type. induction l as [|y l IH]; [intros _ []|]. intros [H1 H2] [<-|Hx]; auto. Qed.
  Definition body_known (k : list string) (b : rulebody) : Prop := fits b = true /\ all (term_known k) (rb_terms b).
  Definition dir_known (l : list (string * string)) : Prop :=
    all (fun nt => let k := known l (fst nt) (snd nt) in
                   all (fun it => all (body_known k) (it_bodies it)) (items_of (snd nt))) l.
  Lemma dirs_known : all dir_known shipped.
  Proof using Type. vm_compute. repeat split; first [right; reflexivity|left; reflexivity]. Qed.

  Lemma names_defined text x : decodes text = true -> In x (names_of text) -> defines e text x.
  Proof using HE Hhalf Hcent Hpat.
    unfold names_of, items_of. intros D H. destruct (parse text) as [[[ps its] re]|] eqn:P; [|destruct H].
    apply in_map_iff in H as (it & <- & H). apply filter_In in H as [H1 H2].
    exists ps, its, re, it. split; [exact (parsed _ _ _ _ D P)|]. split; [exact H1|]. split; [|reflexivity].
    destruct (it_frame it); [discriminate|reflexivity].
  Qed.
  Lemma all_decode : all (fun l => all (fun nt => decodes (snd nt) = true) l) shipped.
  Proof using Type. vm_compute. repeat split. Qed.
  Lemma contained l name text : In l shipped -> In (name, text) l -> name <> rejected -> self_contained e l name text.
  Proof using HE Hhalf Hcent Hpat.
    intros Hl Hn Hr. pose proof dirs_ok as D. rewrite forallb_forall in D. specialize (D l Hl). unfold dir_ok in D.
    rewrite forallb_forall in D. specialize (D _ Hn). cbn [fst snd] in D.
    apply orb_true_iff in D as [D|D]; [apply String.eqb_eq in D; contradiction|].
    apply andb_true_iff in D as [D1 D2]. unfold paths in D2. destruct (parse text) as [[[ps its] re]|] eqn:P; [|discriminate].
    exists ps, its, re. split; [exact (parsed _ _ _ _ D1 P)|].
    intros it b Hit Hb. pose proof (all_in _ _ _ (all_in _ _ _ dirs_known Hl) Hn) as K. cbn [fst snd] in K. cbv zeta in K.
    unfold items_of in K. rewrite P in K. pose proof (all_in _ _ _ (all_in _ _ _ K Hit) Hb) as [K1 K2]. split.
    - intros f Hf. unfold fits in K1. rewrite Hf in K1. apply orb_true_iff in K1 as [K1|K1]; [left; apply is_entity_ok; exact K1|].
      right. apply fun_okb_ok. exact K1.
    - intros t Ht Htt. pose proof (all_in _ _ _ K2 Ht) as [K3|K3]%(fun H => eq_ind (t_type t) (fun ty => match ty with
        | TNonterminal => t_value t = substring 0 16 (e_md5 e sf_pattern) \/ mem (t_value t) (["numeric"; "digits"; "letters"]%string ++ known l name text) = true
        | _ => True end) H TNonterminal Htt).
      + left. right. exact K3.
      + apply mem_in in K3. apply in_app_iff in K3 as [K3|K3]; [left; left; exact K3|]. right.
        unfold known in K3. apply in_app_iff in K3 as [K3|K3]; [left; exact (names_defined _ _ D1 K3)|]. right.
        apply in_flat_map in K3 as (q & Hq & K3). exists q, (text_in l q).
        destruct (file_facts _ _ _ Hl Hn Hr) as (? & ? & ? & ? & ? & F2). destruct (F2 q Hq) as ((t' & Ht') & _).
        assert (L : In (q, text_in l q) l).
        { unfold text_in. destruct (lookup l q) as [tx|] eqn:L; [exact (lookup_some_in _ _ _ L)|]. exfalso. apply lookup_none_notin in L. apply L. exact (in_map fst _ _ Ht'). }
        split; [exact Hq|]. split; [exact L|]. apply names_defined; [|exact K3].
        exact (all_in _ _ _ (all_in _ _ _ all_decode Hl) L).
  Qed.
End Texts.

(** *** the rejected file *)
Lemma any_rejected e dir fuel depth gt : installed e dir dir_builtin ->
  from_file e (600 + fuel) (S depth) (e_join e dir rejected) gt = Err.
Proof.
  intros H. destruct (H rejected builtin_any) as [E1 E2]; [right; right; left; reflexivity|].
  unfold from_file, GrammarFromFile. rewrite E1, E2. cbn [Base.bind]. rewrite gfs_unfold.
  unfold count. cbn [w_files lookup]. rewrite String.eqb_refl. cbn [Nat.leb].
  clear.
  match goal with |- context [read_text_ ?a ?b ?c ?d ?e ?f ?g ?h ?i ?j] => set (R := read_text_ a b c d e f g h i j) end.
  assert (E : R = Err) by (unfold R; vm_compute; reflexivity). rewrite E. reflexivity.
Qed.
