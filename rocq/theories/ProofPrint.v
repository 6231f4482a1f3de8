(** The printed form determines what is printed. *)
From Coq Require Import Ascii.
From Verif Require Import Base ModelTypes ModelText ModelQuote ModelEarley ModelTrees ModelApi ModelString ModelPrint
     SpecTypes SpecGrammar SpecSem SpecPrint ProofQuote.

Lemma app_string_cons c s t : (String c s ++ t = String c (s ++ t))%string.
Proof. reflexivity. Qed.
Lemma pairs_length {A B} (R : A -> B -> Prop) l m : Forall2 R l m -> length l = length m.
Proof. induction 1; simpl; congruence. Qed.
Lemma cons_inj c s t : String c s = String c t -> s = t.
Proof. congruence. Qed.
Lemma list_ascii_app s t : list_ascii_of_string (s ++ t)%string = list_ascii_of_string s ++ list_ascii_of_string t.
Proof. induction s; simpl; congruence. Qed.
Lemma lacks_app c s t : lacks c (s ++ t)%string <-> lacks c s /\ lacks c t.
Proof. unfold lacks. rewrite list_ascii_app, in_app_iff. tauto. Qed.

Lemma split_first c : forall x y a b, lacks c x -> lacks c y ->
  (x ++ String c a = y ++ String c b)%string -> x = y /\ a = b.
Proof.
  induction x as [|d x IH]; intros [|e y] a b Hx Hy H.
  - simpl in H. injection H as ->. auto.
  - simpl in H. injection H as -> _. exfalso. apply Hy. left. reflexivity.
  - simpl in H. injection H as -> _. exfalso. apply Hx. left. reflexivity.
  - simpl in H. injection H as -> H. destruct (IH y a b) as [-> ->]; auto; intros Hin; [apply Hx|apply Hy]; right; exact Hin.
Qed.

Definition head (s : string) : option ascii := match s with EmptyString => None | String c _ => Some c end.

Lemma rep_inj p c w : p = String c w -> forall n m a b, head a <> Some c -> head b <> Some c ->
  (rep n p ++ a = rep m p ++ b)%string -> n = m /\ a = b.
Proof.
  intros Ep. induction n as [|n IH]; intros [|m] a b Ha Hb H; cbn [rep] in H.
  - auto.
  - exfalso. apply Ha. cbn [append] in H. rewrite H. subst p. reflexivity.
  - exfalso. apply Hb. cbn [append] in H. rewrite <- H. subst p. reflexivity.
  - rewrite ?append_assoc in H. apply append_inj_l in H. destruct (IH m a b) as [-> ->]; auto.
Qed.

Section Print.
  Variable is_print_hi : rune -> bool.
  Variable float_string : bigf -> string.
  Notation ftext f := (fmr_opt_string is_print_hi float_string f).
  Notation tstr := (term_string is_print_hi).
  Notation tsstr := (terms_string is_print_hi).
  Notation sstr := (state_string is_print_hi float_string).
  Notation alike := (alike is_print_hi float_string).
  Notation tree_alike := (tree_alike is_print_hi float_string).

  Lemma quote_head s : exists u, quote is_print_hi s = String """" u.
  Proof. unfold quote. eexists. reflexivity. Qed.

  Definition opening (c : ascii) : Prop := c = "<"%char \/ c = "("%char \/ c = """"%char.
  Lemma term_head t : plain_term t -> exists c u, tstr t = String c u /\ opening c.
  Proof.
    unfold plain_term, term_string, opening. destruct (t_type t); intros H; try contradiction.
    - do 2 eexists. split; [reflexivity|]. auto.
    - destruct (quote_head (t_value t)) as [u ->]. do 2 eexists. split; [reflexivity|]. auto.
    - do 2 eexists. split; [reflexivity|]. auto.
    - do 2 eexists. split; [reflexivity|]. auto.
  Qed.

  Lemma term_inj t u a b : plain_term t -> plain_term u -> (tstr t ++ a = tstr u ++ b)%string ->
    term_alike t u /\ a = b.
  Proof.
    unfold plain_term, term_string, term_alike, plain_name. intros Ht Hu H.
    destruct (quote_head (t_value t)) as [q1 E1]. destruct (quote_head (t_value u)) as [q2 E2].
    destruct (t_type t) eqn:Et, (t_type u) eqn:Eu; try contradiction;
      try (rewrite ?E1, ?E2 in H; cbn in H; discriminate H);
      try (exfalso; cbn in H; congruence).
    - rewrite ?append_assoc in H. cbn [append] in H. injection H as H.
      rewrite ?append_assoc in H. cbn [append] in H. destruct (split_first _ _ _ _ _ Ht Hu H) as [-> H1].
      injection H1 as ->. auto.
    - rewrite ?append_assoc in H. destruct (quote_inj _ _ _ _ _ H) as [-> H1]. cbn [append] in H1. injection H1 as ->. auto.
    - cbn in H. injection H as ->. split; [split; [reflexivity|congruence]|reflexivity].
    - rewrite ?append_assoc in H. cbn [append] in H. injection H as H.
      rewrite ?append_assoc in H. cbn [append] in H. destruct (split_first _ _ _ _ _ Ht Hu H) as [-> H1].
      injection H1 as ->. auto.
  Qed.

  Lemma term_same t u : term_alike t u -> tstr t = tstr u.
  Proof. unfold term_alike, term_string. intros [<- H]. destruct (t_type t); try rewrite H by discriminate; reflexivity. Qed.
  Lemma terms_same dot ts us : Forall2 term_alike ts us -> forall i, tsstr dot i ts = tsstr dot i us.
  Proof. induction 1 as [|t u ts us Ht _ IH]; intros i; cbn [terms_string]; [reflexivity|]. rewrite (term_same _ _ Ht), IH. reflexivity. Qed.

  (** the dot at the end of a body and the range after it *)
  Definition tail (dot n : nat) (a : string) : string := ((if Nat.eqb dot n then DOT else "") ++ String " " (String "[" a))%string.
  Lemma dot_eq : DOT = String "226"%char (String "128"%char (String "162"%char "")).
  Proof. reflexivity. Qed.

  Lemma terms_inj : forall ts us dot dot' i a b, Forall plain_term ts -> Forall plain_term us ->
    dot <= i + length ts -> dot' <= i + length us ->
    (tsstr dot i ts ++ tail dot (i + length ts) a = tsstr dot' i us ++ tail dot' (i + length us) b)%string ->
    Forall2 term_alike ts us /\ (dot = dot' \/ dot < i /\ dot' < i) /\ a = b.
  Proof.
    induction ts as [|t ts IH]; intros [|u us] dot dot' i a b Ht Hu Hd Hd' H.
    - cbn [terms_string append length] in *. rewrite Nat.add_0_r in *. unfold tail in H. split; [constructor|].
      destruct (Nat.eqb dot i) eqn:E1, (Nat.eqb dot' i) eqn:E2; rewrite ?dot_eq in H; cbn [append] in H; try discriminate H;
        rewrite ?Nat.eqb_eq, ?Nat.eqb_neq in *; injection H as ->; split; auto; lia.
    - exfalso. apply Forall_inv in Hu. destruct (term_head u Hu) as (c & w & Ew & Ho).
      cbn [terms_string append length] in H. rewrite Nat.add_0_r, (Nat.eqb_sym i) in H. unfold tail in H. rewrite Ew in H.
      destruct (Nat.eqb dot i) eqn:E1, (Nat.eqb dot' i) eqn:E2; rewrite ?dot_eq in H; cbn [append] in H; try discriminate H;
        injection H as H; destruct Ho as [->|[->| ->]]; discriminate.
    - exfalso. apply Forall_inv in Ht. destruct (term_head t Ht) as (c & w & Ew & Ho).
      cbn [terms_string append length] in H. rewrite Nat.add_0_r, (Nat.eqb_sym i) in H. unfold tail in H. rewrite Ew in H.
      destruct (Nat.eqb dot i) eqn:E1, (Nat.eqb dot' i) eqn:E2; rewrite ?dot_eq in H; cbn [append] in H; try discriminate H;
        injection H as H; destruct Ho as [->|[->| ->]]; discriminate.
    - inversion Ht as [|? ? Ht1 Ht2]; subst. inversion Hu as [|? ? Hu1 Hu2]; subst.
      cbn [terms_string length] in *. rewrite ?append_assoc in H.
      destruct (term_head t Ht1) as (c & w & Ew & Ho). destruct (term_head u Hu1) as (c' & w' & Ew' & Ho').
      rewrite <- !plus_n_Sm in *. rewrite !(Nat.eqb_sym i) in H.
      assert ((dot = i <-> dot' = i) /\
              (tstr t ++ tsstr dot (S i) ts ++ tail dot (S i + length ts) a
               = tstr u ++ tsstr dot' (S i) us ++ tail dot' (S i + length us) b)%string) as [Hii H'].
      { cbn [Nat.add]. destruct (Nat.eqb dot i) eqn:E1, (Nat.eqb dot' i) eqn:E2; rewrite ?Nat.eqb_eq, ?Nat.eqb_neq in *.
        - split; [lia|]. rewrite ?append_assoc in H. apply append_inj_l in H. cbn [append] in H. injection H as H. exact H.
        - exfalso. rewrite Ew' in H. rewrite dot_eq in H. cbn [append] in H. injection H as H. destruct Ho' as [->|[->| ->]]; discriminate.
        - exfalso. rewrite Ew in H. rewrite dot_eq in H. cbn [append] in H. injection H as H. destruct Ho as [->|[->| ->]]; discriminate.
        - split; [lia|]. cbn [append] in H. exact H. }
      destruct (term_inj _ _ _ _ Ht1 Hu1 H') as [Hal H2].
      destruct (IH us dot dot' (S i) a b Ht2 Hu2 ltac:(lia) ltac:(lia) H2) as (F & Hdd & ->).
      split; [constructor; auto|]. split; [lia|reflexivity].
  Qed.

  Lemma nd_dash a : no_digit_first ("-" ++ a)%string.
  Proof. cbn [append no_digit_first]. unfold is_digit. replace (byte_of "-") with 45%Z by reflexivity. lia. Qed.
  Lemma nd_close a : no_digit_first ("]" ++ a)%string.
  Proof. cbn [append no_digit_first]. unfold is_digit. replace (byte_of "]") with 93%Z by reflexivity. lia. Qed.

  Lemma span_inj s u a b : (span_string s ++ a = span_string u ++ b)%string ->
    s_start s = s_start u /\ s_end s = s_end u /\ a = b.
  Proof.
    unfold span_string. intros H. rewrite ?append_assoc in H. apply append_inj_l in H.
    destruct (dec_N_prefix _ _ _ _ (nd_dash _) (nd_dash _) H) as [H1 H2]. apply append_inj_l in H2.
    destruct (dec_N_prefix _ _ _ _ (nd_close _) (nd_close _) H2) as [H3 H4].
    injection H4 as ->. split; [lia|]. split; [lia|reflexivity].
  Qed.

  Lemma state_head stop s : plain_state is_print_hi float_string stop s -> exists c u, sstr s = String c u /\ opening c.
  Proof.
    unfold plain_state, state_string, opening. destruct (quote_head (t_value (s_term s))) as [q Eq].
    destruct (t_type (s_term s)); intros H; try contradiction.
    - destruct H as (_ & b & -> & _). do 2 eexists. split; [reflexivity|]. auto.
    - rewrite Eq. do 2 eexists. split; [reflexivity|]. auto.
    - do 2 eexists. split; [reflexivity|]. auto.
    - do 2 eexists. split; [reflexivity|]. auto.
  Qed.

  Lemma rule_string s b : t_type (s_term s) = TNonterminal -> s_rb s = Some b -> forall a,
    (sstr s ++ a)%string = String "<" (t_value (s_term s) ++ String ">" (" -> " ++ tsstr (s_dot s) 0 (rb_terms b)
      ++ tail (s_dot s) (0 + length (rb_terms b))
           (dec_N (N.of_nat (s_start s)) ++ "-" ++ dec_N (N.of_nat (s_end s)) ++ "]" ++ " {" ++ ftext (rb_f b) ++ "}" ++ a)))%string.
  Proof.
    intros Et Eb a. unfold state_string, span_string, tail. rewrite Et, Eb. rewrite !append_assoc. reflexivity.
  Qed.

  Lemma digits_span s u a b :
    (dec_N (N.of_nat (s_start s)) ++ "-" ++ dec_N (N.of_nat (s_end s)) ++ "]" ++ a
     = dec_N (N.of_nat (s_start u)) ++ "-" ++ dec_N (N.of_nat (s_end u)) ++ "]" ++ b)%string ->
    s_start s = s_start u /\ s_end s = s_end u /\ a = b.
  Proof.
    intros H. apply span_inj. unfold span_string. rewrite !append_assoc. f_equal. exact H.
  Qed.

  Lemma state_inj stop a b :
    (forall f f', lacks stop f -> lacks stop f' -> (f ++ "}" ++ a = f' ++ "}" ++ b)%string -> f = f' /\ a = b) ->
    forall s u, plain_state is_print_hi float_string stop s -> plain_state is_print_hi float_string stop u ->
    (sstr s ++ a = sstr u ++ b)%string -> alike s u /\ a = b.
  Proof.
    intros Hfin s u Hs Hu H.
    pose proof Hs as Hs0. pose proof Hu as Hu0. unfold plain_state in Hs, Hu. unfold SpecPrint.alike.
    destruct (quote_head (t_value (s_term s))) as [q1 E1]. destruct (quote_head (t_value (s_term u))) as [q2 E2].
    destruct (t_type (s_term s)) eqn:Es, (t_type (s_term u)) eqn:Eu; try contradiction.
    - destruct Hs as (Hns & bs & Ebs & Hbs & Hds). destruct Hu as (Hnu & bu & Ebu & Hbu & Hdu).
      rewrite (rule_string s bs Es Ebs), (rule_string u bu Eu Ebu) in H. apply cons_inj in H.
      destruct (split_first _ _ _ _ _ Hns Hnu H) as [Hx H1]. apply append_inj_l in H1.
      destruct (terms_inj _ _ _ _ 0 _ _ (proj1 Hbs) (proj1 Hbu) Hds Hdu H1) as (F & Hd & H2).
      destruct (digits_span _ _ _ _ H2) as (Hst & Hen & H3). apply append_inj_l in H3.
      destruct (Hfin _ _ (proj2 Hbs) (proj2 Hbu) H3) as [Hf ->].
      split; [|reflexivity]. split; [reflexivity|]. split; [exact Hst|]. split; [exact Hen|].
      split; [exact Hx|]. split; [lia|]. exists bs, bu. auto.
    - exfalso. destruct Hs as (_ & bs & Ebs & _). unfold state_string in H. rewrite Es, Eu, Ebs, E2 in H. discriminate H.
    - exfalso. destruct Hs as (_ & bs & Ebs & _). unfold state_string in H. rewrite Es, Eu, Ebs in H. discriminate H.
    - exfalso. destruct Hs as (_ & bs & Ebs & _). unfold state_string in H. rewrite Es, Eu, Ebs in H. discriminate H.
    - exfalso. destruct Hu as (_ & bs & Ebs & _). unfold state_string in H. rewrite Es, Eu, Ebs, E1 in H. discriminate H.
    - unfold state_string in H. rewrite Es, Eu, !append_assoc in H.
      destruct (quote_inj _ _ _ _ _ H) as [Hx H1]. destruct (span_inj _ _ _ _ H1) as (Hst & Hen & Hab). auto 10.
    - exfalso. unfold state_string in H. rewrite Es, Eu, E1 in H. discriminate H.
    - exfalso. unfold state_string in H. rewrite Es, Eu, E1 in H. discriminate H.
    - exfalso. destruct Hu as (_ & bs & Ebs & _). unfold state_string in H. rewrite Es, Eu, Ebs in H. discriminate H.
    - exfalso. unfold state_string in H. rewrite Es, Eu, E2 in H. discriminate H.
    - unfold state_string in H. rewrite Es, Eu, !append_assoc in H. apply append_inj_l in H.
      apply (rep_inj "# " "#" " " eq_refl) in H as [_ H]; try (rewrite dot_eq; discriminate).
      apply append_inj_l in H. apply append_inj_l in H. destruct (span_inj _ _ _ _ H) as (Hst & Hen & Hab). auto 10.
    - exfalso. unfold state_string in H. rewrite Es, Eu in H. discriminate H.
    - exfalso. destruct Hu as (_ & bs & Ebs & _). unfold state_string in H. rewrite Es, Eu, Ebs in H. discriminate H.
    - exfalso. unfold state_string in H. rewrite Es, Eu, E2 in H. discriminate H.
    - exfalso. unfold state_string in H. rewrite Es, Eu in H. discriminate H.
    - unfold state_string in H. rewrite Es, Eu, !append_assoc in H. apply append_inj_l in H.
      change (">) -> " ++ ?x)%string with (String ">" (") -> " ++ x))%string in H.
      destruct (split_first _ _ _ _ _ Hs Hu H) as [Hx H1]. rewrite <- Hx in *. apply append_inj_l in H1.
      apply (rep_inj ("<" ++ t_value (s_term s) ++ "> ")%string "<" _ eq_refl) in H1 as [Hd H1]; try (rewrite dot_eq; discriminate).
      apply append_inj_l in H1. apply append_inj_l in H1. destruct (span_inj _ _ _ _ H1) as (Hst & Hen & Hab).
      rewrite Hd in Hab. apply append_inj_l in Hab. apply append_inj_l in Hab. apply append_inj_l in Hab. auto 10.
  Qed.

  Lemma state_same s u : alike s u -> sstr s = sstr u.
  Proof.
    unfold SpecPrint.alike, state_string, span_string. intros (<- & <- & <- & H). destruct (t_type (s_term s)).
    - rewrite H. reflexivity.
    - destruct H as (<- & <- & b & c & -> & -> & F & Hf). rewrite (terms_same _ _ _ F), Hf, (pairs_length _ _ _ F). reflexivity.
    - rewrite H. reflexivity.
    - reflexivity.
    - destruct H as [<- <-]. reflexivity.
  Qed.

  Notation nl := (of_byte 10).
  Lemma line_inj a b s u : plain_state is_print_hi float_string nl s -> plain_state is_print_hi float_string nl u ->
    (sstr s ++ newline ++ a = sstr u ++ newline ++ b)%string -> alike s u /\ a = b.
  Proof.
    intros Hs Hu H. apply (state_inj nl) in H; auto.
    - destruct H as [H E]. split; [exact H|]. apply append_inj_l in E. exact E.
    - intros f f' Hf Hf' E.
      assert (forall g, lacks nl g -> lacks nl (g ++ "}")%string) as Hl.
      { intros g Hg. apply lacks_app. split; [exact Hg|]. intros [X|[]]. discriminate. }
      rewrite <- !(append_assoc _ "}") in E. change (newline ++ ?x)%string with (String nl x) in E.
      destruct (split_first _ _ _ _ _ (Hl _ Hf) (Hl _ Hf') E) as [E1 ->]. split; [|reflexivity].
      revert E1. clear. revert f'. induction f as [|c f IH]; intros [|d f'] E; auto.
      + exfalso. injection E as _ E. destruct f'; discriminate.
      + exfalso. injection E as _ E. destruct f; discriminate.
      + cbn [append] in E. injection E as -> E. f_equal. auto.
  Qed.
  Lemma inline_inj a b s u : plain_state is_print_hi float_string "}" s -> plain_state is_print_hi float_string "}" u ->
    (sstr s ++ a = sstr u ++ b)%string -> alike s u /\ a = b.
  Proof.
    intros Hs Hu H. apply (state_inj "}") in H; auto. intros f f' Hf Hf' E. exact (split_first _ _ _ _ _ Hf Hf' E).
  Qed.

  (** ** Trees, one line per node *)
  Notation plv := (print_level is_print_hi float_string).
  Notation plain := (plain_tree is_print_hi float_string).
  Definition forest (level : nat) (l : list node) : string := String.concat "" (map (plv level) l).
  Lemma concat_cons x l : String.concat "" (x :: l) = (x ++ String.concat "" l)%string.
  Proof. destruct l; cbn [String.concat]; [rewrite append_nil_r|]; reflexivity. Qed.
  Lemma forest_cons level v k l : forest level (Node v k :: l)
    = (rep level "  " ++ sstr v ++ newline ++ forest (S level) k ++ forest level l)%string.
  Proof. unfold forest. cbn [map]. rewrite concat_cons. cbn [print_level]. rewrite !append_assoc. reflexivity. Qed.

  (** a text that starts with fewer than [level] indentations *)
  Definition shallow (level : nat) (a : string) : Prop :=
    a = EmptyString \/ exists k c u, k < level /\ c <> " "%char /\ a = (rep k "  " ++ String c u)%string.
  Lemma opening_not_blank c : opening c -> c <> " "%char.
  Proof. intros [->|[->| ->]]; discriminate. Qed.

  Fixpoint tsize (t : node) : nat := match t with Node _ l => S (fold_right (fun k n => tsize k + n) 0 l) end.
  Definition fsize (l : list node) : nat := fold_right (fun k n => tsize k + n) 0 l.

  Lemma plain_kids stop v l : plain stop (Node v l) -> Forall (plain stop) l.
  Proof. intros H. apply Forall_forall. intros k Hk m Hm. apply H. eapply po_kid; eauto. Qed.
  Lemma plain_root stop v l : plain stop (Node v l) -> plain_state is_print_hi float_string stop v.
  Proof. intros H. exact (H (Node v l) (po_self _)). Qed.

  Lemma forest_shallow level l a : Forall (plain nl) l -> shallow level a -> shallow (S level) (forest level l ++ a).
  Proof.
    intros Hl Ha. destruct l as [|[v k] l].
    - destruct Ha as [->|(n & c & u & H1 & H2 & ->)]; [left; reflexivity|]. right. exists n, c, u. split; [lia|auto].
    - right. apply Forall_inv in Hl. apply plain_root in Hl. destruct (state_head _ _ Hl) as (c & u & E & Ho).
      rewrite forest_cons, E, !append_assoc. cbn [append]. exists level, c. eexists. split; [lia|].
      split; [apply opening_not_blank; exact Ho|]. reflexivity.
  Qed.

  Lemma forest_inj : forall n level l m a b, fsize l <= n -> Forall (plain nl) l -> Forall (plain nl) m ->
    shallow level a -> shallow level b -> (forest level l ++ a = forest level m ++ b)%string ->
    Forall2 tree_alike l m /\ a = b.
  Proof.
    assert (forall level v k l a b, plain nl (Node v k) -> shallow level a ->
              a = (forest level (Node v k :: l) ++ b)%string -> False) as Hno.
    { intros level v k l a b Hv Ha E. apply plain_root in Hv. destruct (state_head _ _ Hv) as (c & u & Ec & Ho).
      apply opening_not_blank in Ho. rewrite forest_cons, Ec, !append_assoc in E.
      destruct Ha as [->|(j & d & w & H1 & H2 & ->)].
      - destruct level; discriminate.
      - apply (rep_inj "  " " " " " eq_refl) in E as [E _]; [lia|cbn; congruence|cbn; congruence]. }
    induction n as [|n IH]; intros level l m a b Hn Hl Hm Ha Hb H.
    { destruct l as [|[v k] l]; [|cbn in Hn; lia]. destruct m as [|[w k'] m]; [auto|].
      exfalso. eapply Hno; [exact (Forall_inv Hm)|exact Ha|exact H]. }
    destruct l as [|[v k] l], m as [|[w k'] m].
    - auto.
    - exfalso. eapply Hno; [exact (Forall_inv Hm)|exact Ha|exact H].
    - exfalso. eapply Hno; [exact (Forall_inv Hl)|exact Hb|symmetry; exact H].
    - rewrite !forest_cons, !append_assoc in H. apply append_inj_l in H.
      inversion Hl as [|? ? Hv Hl']; subst. inversion Hm as [|? ? Hw Hm']; subst.
      apply line_inj in H as [Hvw H]; [|eapply plain_root; eassumption|eapply plain_root; eassumption].
      cbn [fsize fold_right tsize] in Hn. fold (fsize k) in Hn. fold (fsize l) in Hn.
      apply IH in H as [F1 H]; [|lia|eapply plain_kids; eassumption|eapply plain_kids; eassumption
                                |apply forest_shallow; assumption|apply forest_shallow; assumption].
      apply IH in H as [F2 ->]; [|lia|assumption|assumption|assumption|assumption].
      split; [|reflexivity]. constructor; [constructor; assumption|exact F2].
  Qed.

  Lemma forest_same : forall n l m, fsize l <= n -> Forall2 tree_alike l m -> forall level, forest level l = forest level m.
  Proof.
    induction n as [|n IH]; intros l m Hn F level; destruct F as [|[v k] [w k'] l m Hvw F]; try reflexivity.
    - cbn in Hn. lia.
    - inversion Hvw as [? ? ? ? Hs Hk]; subst. cbn [fsize fold_right tsize] in Hn. fold (fsize k) in Hn. fold (fsize l) in Hn.
      rewrite !forest_cons. rewrite (IH k k' ltac:(lia) Hk), (IH l m ltac:(lia) F), (state_same _ _ Hs). reflexivity.
  Qed.

  Theorem print_faithful t u : plain nl t -> plain nl u ->
    (print_node is_print_hi float_string t = print_node is_print_hi float_string u <-> tree_alike t u).
  Proof.
    intros Ht Hu. unfold print_node.
    assert (forall x, plv 0 x = forest 0 [x]) as E by (intros x; unfold forest; cbn [map String.concat]; reflexivity).
    rewrite !E. split.
    - intros H. assert (forest 0 [t] ++ "" = forest 0 [u] ++ "")%string as H1 by (rewrite !append_nil_r; exact H).
      apply (forest_inj (fsize [t])) in H1 as [F _]; try (constructor; auto; fail); auto; try (left; reflexivity).
      inversion F; subst. assumption.
    - intros H. apply (forest_same (fsize [t])); [lia|]. constructor; [exact H|constructor].
  Qed.

  Lemma print_lines : forall n t level, tsize t <= n -> plv level t
    = String.concat "" (map (fun e => rep (fst e) "  " ++ sstr (snd e) ++ newline)%string (walk level t)).
  Proof.
    induction n as [|n IH]; intros [v l] level Hn; [cbn in Hn; lia|].
    cbn [tsize] in Hn. cbn [print_level walk map fst snd]. rewrite concat_cons, !append_assoc. do 3 f_equal.
    revert Hn. fold (fsize l). induction l as [|k l IHl]; intros Hn; [reflexivity|].
    cbn [map flat_map]. rewrite concat_cons, map_app. cbn [fsize fold_right] in Hn. fold (fsize l) in Hn.
    rewrite (IH k) by lia. rewrite IHl by lia. clear. generalize (map (fun e => rep (fst e) "  " ++ sstr (snd e) ++ newline)%string (flat_map (walk (S level)) l)).
    generalize (map (fun e => rep (fst e) "  " ++ sstr (snd e) ++ newline)%string (walk (S level) k)).
    intros x y. induction x as [|s x IH]; [reflexivity|]. cbn [app]. rewrite !concat_cons, append_assoc, IH. reflexivity.
  Qed.

  (** ** Trees on one line *)
  Notation nstr := (node_string is_print_hi float_string).
  Lemma node_string_eq v l : nstr (Node v l)
    = (sstr v ++ match l with [] => "" | _ => " [" ++ join " " (map nstr l) ++ "]" end)%string.
  Proof. destruct l; [cbn [node_string]; rewrite append_nil_r|]; reflexivity. Qed.

  (** what may follow a node inside a list *)
  Definition follows (a : string) : Prop :=
    a = EmptyString \/ (exists u, a = String "]" u) \/ exists c u, a = String " " (String c u) /\ c <> "["%char.

  Lemma node_head t : plain "}" t -> exists c u, nstr t = String c u /\ opening c.
  Proof.
    destruct t as [v l]. intros H. apply plain_root in H. destruct (state_head _ _ H) as (c & u & E & Ho).
    rewrite node_string_eq, E. cbn [append]. eauto.
  Qed.

  Lemma join_cons (x : string) l : join " " (x :: l) = match l with [] => x | _ => (x ++ " " ++ join " " l)%string end.
  Proof. destruct l; reflexivity. Qed.

  Lemma inline_tree : forall n,
    (forall t u a b, tsize t <= n -> plain "}" t -> plain "}" u -> follows a -> follows b ->
       (nstr t ++ a = nstr u ++ b)%string -> tree_alike t u /\ a = b) /\
    (forall l m a b, fsize l <= n -> l <> [] -> m <> [] -> Forall (plain "}") l -> Forall (plain "}") m ->
       (join " " (map nstr l) ++ "]" ++ a = join " " (map nstr m) ++ "]" ++ b)%string -> Forall2 tree_alike l m /\ a = b).
  Proof.
    induction n as [|n [IH1 IH2]].
    { split; [intros [v l] u a b Hn; cbn in Hn; lia|]. intros [|[v k] l] m a b Hn H1; [congruence|cbn in Hn; lia]. }
    assert (forall t u a b, tsize t <= S n -> plain "}" t -> plain "}" u -> follows a -> follows b ->
       (nstr t ++ a = nstr u ++ b)%string -> tree_alike t u /\ a = b) as H1.
    { intros [v l] [w m] a b Hn Ht Hu Ha Hb H. rewrite !node_string_eq, !append_assoc in H.
      apply inline_inj in H as [Hvw H]; [|eapply plain_root; eassumption|eapply plain_root; eassumption].
      assert (forall a x, follows a -> a = (" [" ++ x)%string -> False) as Hno.
      { intros a' x [->|[(u & ->)|(c & u & -> & Hc)]] E; try discriminate. cbn in E. congruence. }
      destruct l as [|t l], m as [|u m].
      - split; [constructor; [exact Hvw|constructor]|exact H].
      - exfalso. rewrite !append_assoc in H. eapply Hno; [exact Ha|exact H].
      - exfalso. rewrite !append_assoc in H. eapply Hno; [exact Hb|symmetry; exact H].
      - rewrite !append_assoc in H. apply append_inj_l in H.
        apply IH2 in H as [F ->].
        + split; [constructor; assumption|reflexivity].
        + cbn [tsize] in Hn. fold (fsize (t :: l)) in Hn. lia.
        + discriminate.
        + discriminate.
        + eapply plain_kids; eassumption.
        + eapply plain_kids; eassumption. }
    split; [exact H1|]. intros l. induction l as [|t l IHl]; [congruence|].
    intros [|u m] a b Hn _ Hm Hl Hm' H; [congruence|]. cbn [fsize fold_right] in Hn. fold (fsize l) in Hn.
    inversion Hl as [|? ? Ht Hl']; subst. inversion Hm' as [|? ? Hu Hm'']; subst.
    assert (1 <= tsize t) as Hpos by (destruct t; cbn; lia).
    cbn [map] in H. rewrite !join_cons in H.
    assert (forall x r s, plain "}" x -> follows (" " ++ join " " (map nstr (x :: r)) ++ "]" ++ s)%string) as Hfol.
    { intros x r s Hx; right; right; destruct (node_head x Hx) as (c & w & E & Ho);
       cbn [map]; rewrite join_cons, E; exists c; destruct (map nstr r); cbn [append]; eexists; (split; [reflexivity|]);
       intros ->; destruct Ho as [Ho|[Ho|Ho]]; discriminate. }
    assert (forall s, follows ("]" ++ s)%string) as Hend by (intros s; right; left; eexists; reflexivity).
    destruct l as [|t2 l], m as [|u2 m]; cbn [map] in H.
    - apply H1 in H as [Htu H]; auto; [|cbn [fsize fold_right] in Hn; lia]. apply append_inj_l in H. split; [constructor; auto|exact H].
    - exfalso. change (nstr u2 :: map nstr m) with (map nstr (u2 :: m)) in H. rewrite !append_assoc in H.
      apply H1 in H as [_ H]; auto; [discriminate|lia|]. apply Hfol. exact (Forall_inv Hm'').
    - exfalso. change (nstr t2 :: map nstr l) with (map nstr (t2 :: l)) in H. rewrite !append_assoc in H.
      apply H1 in H as [_ H]; auto; [discriminate|lia|]. apply Hfol. exact (Forall_inv Hl').
    - change (nstr u2 :: map nstr m) with (map nstr (u2 :: m)) in H. change (nstr t2 :: map nstr l) with (map nstr (t2 :: l)) in H.
      rewrite !append_assoc in H.
      apply H1 in H as [Htu H]; auto; [|lia|apply Hfol; exact (Forall_inv Hl')|apply Hfol; exact (Forall_inv Hm'')].
      apply append_inj_l in H. apply IHl in H as [F ->]; auto; try discriminate; try (cbn [fsize fold_right] in *; lia).
  Qed.

  Lemma nstr_same : forall n t u, tsize t <= n -> tree_alike t u -> nstr t = nstr u.
  Proof.
    induction n as [|n IH]; intros [v l] u Hn H; [cbn in Hn; lia|].
    inversion H as [? w ? m Hs F]; subst. rewrite !node_string_eq, (state_same _ _ Hs). f_equal.
    cbn [tsize] in Hn. fold (fsize l) in Hn.
    assert (map nstr l = map nstr m) as E.
    { revert Hn F. clear - IH. revert m. induction l as [|t l IHl]; intros m Hn F; inversion F; subst; [reflexivity|].
      cbn [fsize fold_right] in Hn. fold (fsize l) in Hn. cbn [map]. f_equal; [apply IH; [lia|assumption]|apply IHl; [lia|assumption]]. }
    rewrite E. destruct F; reflexivity.
  Qed.

  Theorem string_faithful t u : plain "}" t -> plain "}" u -> (nstr t = nstr u <-> tree_alike t u).
  Proof.
    intros Ht Hu. split.
    - intros H. assert (nstr t ++ "" = nstr u ++ "")%string as H1 by (rewrite !append_nil_r; exact H).
      apply (proj1 (inline_tree (tsize t))) in H1 as [H1 _]; auto; left; reflexivity.
    - intros H. apply (nstr_same (tsize t)); auto.
  Qed.

  (** ** Charts *)
  Definition plain_column (c : column) : Prop := Forall (plain_state is_print_hi float_string nl) (c_states c).
  Lemma states_inj : forall l m a b, Forall (plain_state is_print_hi float_string nl) l -> Forall (plain_state is_print_hi float_string nl) m ->
    (String.concat "" (map (fun s => sstr s ++ newline)%string l) ++ newline ++ a
     = String.concat "" (map (fun s => sstr s ++ newline)%string m) ++ newline ++ b)%string -> Forall2 alike l m /\ a = b.
  Proof.
    assert (forall s x y, plain_state is_print_hi float_string nl s -> (newline ++ x = sstr s ++ y)%string -> False) as Hno.
    { intros s x y Hs E. destruct (state_head _ _ Hs) as (c & u & Ec & Ho). rewrite Ec in E.
      cbn in E. injection E as E _. subst c. destruct Ho as [Ho|[Ho|Ho]]; discriminate. }
    induction l as [|s l IH]; intros [|u m] a b Hl Hm H; cbn [map] in H; rewrite ?concat_cons, ?append_assoc in H.
    - cbn [String.concat append] in H. apply cons_inj in H. auto.
    - exfalso. eapply Hno; [exact (Forall_inv Hm)|exact H].
    - exfalso. eapply Hno; [exact (Forall_inv Hl)|symmetry; exact H].
    - inversion Hl; subst. inversion Hm; subst. apply line_inj in H as [Hsu H]; auto.
      apply IH in H as [F ->]; auto.
  Qed.

  Definition col_head (c : column) : res string :=
    match c_index c with
    | O => Ret ("[0] ''" ++ newline)%string
    | S _ => match c_token c with
             | None => Panic
             | Some t => Ret ("[" ++ dec_N (N.of_nat (c_index c)) ++ "] '" ++ tok_string t ++ "' position:["
                              ++ dec_N (N.of_nat (tok_start t)) ++ "-" ++ dec_N (N.of_nat (tok_end t)) ++ "]" ++ newline)%string
             end
    end.
  Lemma col_head_eq c : column_string is_print_hi float_string c = (h <- col_head c ;;
    Ret (h ++ "=======================================" ++ newline
         ++ String.concat "" (map (fun s => sstr s ++ newline) (c_states c)))%string).
  Proof. reflexivity. Qed.

  Lemma columns_inj : forall cs ds x, Forall plain_column cs -> Forall plain_column ds ->
    Forall2 (fun c d => c_index c = c_index d /\ c_token c = c_token d) cs ds ->
    columns_string is_print_hi float_string cs = Ret x -> columns_string is_print_hi float_string ds = Ret x ->
    Forall2 (fun c d => Forall2 alike (c_states c) (c_states d)) cs ds.
  Proof.
    induction cs as [|c cs IH]; intros ds x Hc Hd F Hx Hy; inversion F as [|? d ? ds' [Hi Ht] F']; subst; [constructor|].
    inversion Hc; subst. inversion Hd; subst. cbn [columns_string] in Hx, Hy. rewrite col_head_eq in Hx, Hy.
    unfold col_head in Hx, Hy. rewrite <- Hi, <- Ht in Hy. fold (col_head c) in Hx, Hy.
    destruct (col_head c) as [hd| | |]; try discriminate. cbn [bind] in Hx, Hy.
    destruct (columns_string is_print_hi float_string cs) as [x1| | |] eqn:E1; try discriminate.
    destruct (columns_string is_print_hi float_string ds') as [y1| | |] eqn:E2; try discriminate. cbn [bind] in Hx, Hy.
    assert (forall (p q : string), Ret p = Ret q -> p = q) as Hret by (intros p q E; congruence).
    rewrite <- Hy in Hx. apply Hret in Hx. rewrite !append_assoc in Hx.
    apply append_inj_l in Hx. apply append_inj_l in Hx. apply append_inj_l in Hx.
    apply states_inj in Hx as [F2 ->]; auto. constructor; [exact F2|]. eapply IH; eauto.
  Qed.
  Lemma columns_same : forall cs ds,
    Forall2 (fun c d => c_index c = c_index d /\ c_token c = c_token d) cs ds ->
    Forall2 (fun c d => Forall2 alike (c_states c) (c_states d)) cs ds ->
    columns_string is_print_hi float_string cs = columns_string is_print_hi float_string ds.
  Proof.
    induction cs as [|c cs IH]; intros ds F G; inversion F as [|? d ? ds' [Hi Ht] F']; subst; [reflexivity|].
    inversion G as [|? ? ? ? Hs G']; subst. cbn [columns_string]. unfold column_string. rewrite Hi, Ht, (IH ds' F' G').
    replace (map (fun s => sstr s ++ newline)%string (c_states c)) with (map (fun s => sstr s ++ newline)%string (c_states d)); [reflexivity|].
    clear - Hs. induction Hs as [|s u l m Hsu _ IH]; [reflexivity|]. cbn [map]. rewrite IH, (state_same _ _ Hsu). reflexivity.
  Qed.
  Lemma columns_total cs : (forall c, In c cs -> c_index c = 0 \/ c_token c <> None) ->
    exists x, columns_string is_print_hi float_string cs = Ret x.
  Proof.
    induction cs as [|c cs IH]; intros H; [eexists; reflexivity|].
    destruct IH as [y Ey]; [intros d Hd; apply H; right; exact Hd|]. cbn [columns_string].
    unfold column_string. destruct (H c (or_introl eq_refl)) as [E|E].
    - rewrite E. cbn [bind]. rewrite Ey. eexists. reflexivity.
    - destruct (c_index c); [cbn [bind]; rewrite Ey; eexists; reflexivity|].
      destruct (c_token c); [|congruence]. cbn [bind]. rewrite Ey. eexists. reflexivity.
  Qed.
End Print.
