(** Invariants of chart construction: every state is justified by earlier ones,
    columns hold no duplicates, and the finished chart is closed. *)
From Coq Require Import Permutation.
From Verif Require Import Base ModelTypes ModelEarley SpecTypes SpecGrammar ProofEqual.

(** ** Lists *)
Lemma update_length {A} (l : list A) i a : length (update l i a) = length l.
Proof. revert i; induction l as [|x l IH]; intros [|i]; simpl; auto. Qed.

Lemma nth_update_eq {A} (l : list A) i a : i < length l -> nth_error (update l i a) i = Some a.
Proof. revert i; induction l as [|x l IH]; intros [|i] H; simpl in *; try lia; auto. apply IH; lia. Qed.

Lemma nth_update_neq {A} (l : list A) i j a : i <> j -> nth_error (update l i a) j = nth_error l j.
Proof.
  revert i j; induction l as [|x l IH]; intros [|i] [|j] H; simpl; try congruence; auto.
  all: apply IH; congruence.
Qed.

Lemma update_update {A} (l : list A) i a b : update (update l i a) i b = update l i b.
Proof. revert i; induction l as [|x l IH]; intros [|i]; simpl; auto. f_equal. apply IH. Qed.

Lemma update_same {A} (l : list A) i a : nth_error l i = Some a -> update l i a = l.
Proof.
  revert i; induction l as [|x l IH]; intros [|i] H; simpl in *; try congruence.
  f_equal. apply IH; auto.
Qed.

Lemma nth_app_l {A} (l l' : list A) i a : nth_error l i = Some a -> nth_error (l ++ l') i = Some a.
Proof. intros H. rewrite nth_error_app1; auto. apply nth_error_Some. congruence. Qed.

(** ** Pure views of the partial functions *)
Definition completed (s : tstate) : bool :=
  match is_completed s with Ret b => b | _ => false end.
Definition nxt (s : tstate) : option term :=
  match get_next_term s with Ret o => o | _ => None end.

(** What every chart state of column c looks like. *)
Definition shape (c : nat) (s : tstate) : Prop :=
  s_end s = c /\ s_start s <= c /\
  ((t_type (s_term s) = TNonterminal /\ exists rb, s_rb s = Some rb)
   \/ t_type (s_term s) = TAny \/ t_type (s_term s) = TList).

Lemma is_completed_ret c s : shape c s -> is_completed s = Ret (completed s).
Proof.
  intros (_ & _ & H). unfold completed, is_completed.
  destruct H as [[Ht [rb Hrb]]|[Ht|Ht]]; rewrite Ht.
  - rewrite Hrb. reflexivity.
  - destruct (negb (meta_empty s)); [|reflexivity]. destruct (t_meta (s_term s)); reflexivity.
  - destruct (negb (meta_empty s)); [|reflexivity]. destruct (t_meta (s_term s)); reflexivity.
Qed.

Lemma get_next_ret c s : shape c s -> get_next_term s = Ret (nxt s).
Proof.
  intros Hs. pose proof Hs as (_ & _ & H). unfold nxt, get_next_term.
  destruct H as [[Ht [rb Hrb]]|[Ht|Ht]]; rewrite Ht.
  - rewrite (is_completed_ret c s Hs). simpl. destruct (completed s) eqn:E; [reflexivity|].
    rewrite Hrb. unfold completed, is_completed in E. rewrite Ht, Hrb in E.
    apply Nat.leb_gt in E. unfold idx.
    destruct (nth_error (rb_terms rb) (s_dot s)) eqn:En; [reflexivity|].
    apply nth_error_None in En. lia.
  - destruct (at_max s); reflexivity.
  - destruct (at_max s); reflexivity.
Qed.

(** The pure view on rule states. *)
Lemma nxt_rule s rb : t_type (s_term s) = TNonterminal -> s_rb s = Some rb ->
  nxt s = nth_error (rb_terms rb) (s_dot s).
Proof.
  intros Ht Hrb. unfold nxt, get_next_term. rewrite Ht. unfold is_completed. rewrite Ht, Hrb.
  simpl. destruct (Nat.leb (length (rb_terms rb)) (s_dot s)) eqn:E.
  - apply Nat.leb_le in E. symmetry. apply nth_error_None. exact E.
  - unfold idx. destruct (nth_error (rb_terms rb) (s_dot s)) eqn:En; [reflexivity|].
    apply nth_error_None in En. apply Nat.leb_gt in E. lia.
Qed.

Lemma completed_rule s rb : t_type (s_term s) = TNonterminal -> s_rb s = Some rb ->
  (completed s = true <-> length (rb_terms rb) <= s_dot s).
Proof.
  intros Ht Hrb. unfold completed, is_completed. rewrite Ht, Hrb. apply Nat.leb_le.
Qed.

Lemma completed_special s : t_type (s_term s) = TAny \/ t_type (s_term s) = TList ->
  (completed s = true <-> range_allows (t_meta (s_term s)) (s_dot s)).
Proof.
  intros Ht. unfold completed, is_completed, range_allows, meta_empty.
  destruct Ht as [Ht|Ht]; rewrite Ht.
  all: destruct (t_meta (s_term s)) as [|f|[lo|] [hi|]]; cbn [negb mget];
    rewrite ?andb_true_iff, ?Z.leb_le, ?Nat.ltb_lt; split; auto; try discriminate; try contradiction.
Qed.

Lemma nxt_any s : t_type (s_term s) = TAny -> forall t, nxt s = Some t -> t = s_term s.
Proof.
  intros Ht t. unfold nxt, get_next_term. rewrite Ht. destruct (at_max s); congruence.
Qed.

Lemma nxt_list s : t_type (s_term s) = TList -> forall t, nxt s = Some t ->
  t = mkTerm (t_value (s_term s)) TNonterminal (t_meta (s_term s)).
Proof.
  intros Ht t. unfold nxt, get_next_term. rewrite Ht. destruct (at_max s); congruence.
Qed.

Lemma at_max_range s n : range_allows (t_meta (s_term s)) n -> s_dot s < n -> at_max s = false.
Proof.
  unfold range_allows, at_max, meta_empty. intros H Hlt.
  destruct (t_meta (s_term s)) as [|f|[lo|] [hi|]]; cbn [negb mget] in *; try reflexivity;
    apply Z.leb_gt; lia.
Qed.

(** ** Insertion *)
Definition norm (c : nat) (s : tstate) : tstate :=
  match t_type (s_term s) with
  | TAny => mkSt (s_term s) (s_rb s) (s_start s) c (c - s_start s)
  | _ => mkSt (s_term s) (s_rb s) (s_start s) c (s_dot s)
  end.

Lemma find_state_none l st : find_state l st = None <-> forall s, In s l -> state_equal s st = false.
Proof.
  induction l as [|x l IH]; simpl.
  - split; [intros _ s []|reflexivity].
  - destruct (state_equal x st) eqn:E.
    + split; [discriminate|]. intros H. rewrite (H x) in E by auto. discriminate.
    + destruct (find_state l st) eqn:Ef.
      * split; [discriminate|]. intros H. assert (None = Some n) as X; [|discriminate].
        symmetry. rewrite <- (proj2 IH); auto.
      * split; [|reflexivity]. intros _ s [<-|Hs]; auto. apply IH; auto.
Qed.

Lemma find_state_some l st i : find_state l st = Some i ->
  exists s, nth_error l i = Some s /\ state_equal s st = true.
Proof.
  revert i; induction l as [|x l IH]; simpl; intros i H; [discriminate|].
  destruct (state_equal x st) eqn:E.
  - injection H as <-. exists x. auto.
  - destruct (find_state l st) eqn:Ef; [|discriminate]. injection H as <-. apply IH; auto.
Qed.

Lemma insert_cases col s :
  (exists s', In s' (c_states col) /\ state_equal s' (norm (c_index col) s) = true /\ insert col s = col)
  \/ ((forall s', In s' (c_states col) -> state_equal s' (norm (c_index col) s) = false)
      /\ insert col s = mkCol (c_token col) (c_index col) (c_states col ++ [norm (c_index col) s])).
Proof.
  unfold insert, insert_to_end. cbn [s_term s_rb s_start s_end s_dot].
  assert ((match t_type (s_term s) with
           | TAny => mkSt (s_term s) (s_rb s) (s_start s) (c_index col) (c_index col - s_start s)
           | _ => mkSt (s_term s) (s_rb s) (s_start s) (c_index col) (s_dot s)
           end) = norm (c_index col) s) as E by reflexivity.
  rewrite E. destruct (find_state (c_states col) (norm (c_index col) s)) as [i|] eqn:Ef.
  - left. apply find_state_some in Ef as (s' & Hn & Heq). exists s'. split; [|auto].
    eapply nth_error_In; eauto.
  - right. split; [|reflexivity]. apply find_state_none. exact Ef.
Qed.

(** Equal states coincide in everything but the semantic function. *)
Definition sim (s s' : tstate) : Prop :=
  s_term s = s_term s' /\ s_start s = s_start s' /\ s_end s = s_end s' /\ s_dot s = s_dot s'
  /\ option_map rb_terms (s_rb s) = option_map rb_terms (s_rb s').

Lemma sim_refl s : sim s s.
Proof. repeat split. Qed.

Lemma state_equal_fields s s' : state_equal s s' = true ->
  s_term s = s_term s' /\ s_start s = s_start s' /\ s_end s = s_end s' /\ s_dot s = s_dot s'
  /\ orb_equal (s_rb s) (s_rb s') = true.
Proof.
  unfold state_equal.
  destruct (Nat.eqb (s_start s) (s_start s')) eqn:E1; cbn [negb orb]; [|discriminate].
  destruct (Nat.eqb (s_end s) (s_end s')) eqn:E2; cbn [negb orb]; [|discriminate].
  destruct (Nat.eqb (s_dot s) (s_dot s')) eqn:E3; cbn [negb orb]; [|discriminate].
  destruct (orb_equal (s_rb s) (s_rb s')) eqn:E4; cbn [negb orb]; [|discriminate].
  intros H. apply Nat.eqb_eq in E1, E2, E3. apply term_equal_eq in H. auto.
Qed.

Lemma state_equal_sim s s' : state_equal s s' = true -> sim s s'.
Proof.
  intros H. apply state_equal_fields in H as (H1 & H2 & H3 & H4 & H5).
  repeat split; auto.
  destruct (s_rb s) as [b|], (s_rb s') as [b'|]; simpl in *; try discriminate; auto.
  f_equal. apply rb_equal_terms; auto.
Qed.

Lemma state_equal_iff s s' : wt_orb (s_rb s) -> wt_orb (s_rb s') ->
  (state_equal s s' = true <-> s = s').
Proof.
  intros H1 H2. split.
  - intros H. apply state_equal_fields in H as (E1 & E2 & E3 & E4 & E5).
    apply orb_equal_iff in E5; auto. destruct s, s'; simpl in *; congruence.
  - intros <-. unfold state_equal. rewrite !Nat.eqb_refl. cbn [negb orb].
    replace (orb_equal (s_rb s) (s_rb s)) with true by (symmetry; apply orb_equal_iff; auto).
    cbn [negb orb]. apply term_equal_eq. reflexivity.
Qed.

Lemma state_equal_step s s' : state_equal s s' = true <->
  s_term s = s_term s' /\ s_start s = s_start s' /\ s_end s = s_end s' /\ s_dot s = s_dot s'
  /\ orb_equal (s_rb s) (s_rb s') = true.
Proof.
  split; [apply state_equal_fields|]. intros (E1 & E2 & E3 & E4 & E5). unfold state_equal.
  rewrite E2, E3, E4, E5, !Nat.eqb_refl. cbn [negb orb]. apply term_equal_eq. exact E1.
Qed.
Lemma state_equal_sym s s' : state_equal s s' = true -> state_equal s' s = true.
Proof.
  rewrite !state_equal_step. intros (E1 & E2 & E3 & E4 & E5). repeat split; auto.
  apply orb_equal_sym; auto.
Qed.
Lemma state_equal_trans s s' s'' : state_equal s s' = true -> state_equal s' s'' = true -> state_equal s s'' = true.
Proof.
  rewrite !state_equal_step. intros (E1 & E2 & E3 & E4 & E5) (F1 & F2 & F3 & F4 & F5).
  repeat split; try congruence. eapply orb_equal_trans; eauto.
Qed.

(** ** The chart as a table *)
Definition states_of (cols : list column) (c : nat) : list tstate :=
  match nth_error cols c with Some col => c_states col | None => [] end.
Definition st_at (cols : list column) (c r : nat) : option tstate :=
  nth_error (states_of cols c) r.

Definition apply_op (cols : list column) (op : nat * tstate) : list column :=
  match nth_error cols (fst op) with
  | Some col => update cols (fst op) (insert col (snd op))
  | None => cols
  end.
Definition apply_ops (cols : list column) (ops : list (nat * tstate)) : list column :=
  fold_left apply_op ops cols.

(** Columns only ever grow at the end. *)
Definition ext (cols cols' : list column) : Prop :=
  length cols = length cols' /\
  forall c col, nth_error cols c = Some col ->
    exists l, nth_error cols' c = Some (mkCol (c_token col) (c_index col) (c_states col ++ l)).

Lemma ext_refl cols : ext cols cols.
Proof.
  split; auto. intros c col H. exists []. rewrite app_nil_r. destruct col; exact H.
Qed.

Lemma ext_trans a b c : ext a b -> ext b c -> ext a c.
Proof.
  intros [L1 H1] [L2 H2]. split; [congruence|].
  intros i col H. apply H1 in H as [l Hl]. apply H2 in Hl as [l' Hl']. simpl in Hl'.
  exists (l ++ l'). rewrite app_assoc. exact Hl'.
Qed.

Lemma ext_st_at cols cols' c r s : ext cols cols' -> st_at cols c r = Some s -> st_at cols' c r = Some s.
Proof.
  intros [_ H] Hs. unfold st_at, states_of in *.
  destruct (nth_error cols c) as [col|] eqn:E.
  - apply H in E as [l ->]. simpl. apply nth_app_l; auto.
  - destruct r; discriminate.
Qed.

Lemma ext_len cols cols' c : ext cols cols' -> length (states_of cols c) <= length (states_of cols' c).
Proof.
  intros [_ H]. unfold states_of. destruct (nth_error cols c) as [col|] eqn:E; [|simpl; lia].
  apply H in E as [l ->]. simpl. rewrite app_length. lia.
Qed.

Lemma apply_op_ext cols op : ext cols (apply_op cols op).
Proof.
  destruct op as [c s]. unfold apply_op; simpl. destruct (nth_error cols c) as [col|] eqn:E; [|apply ext_refl].
  assert (c < length cols) as Hc by (apply nth_error_Some; congruence).
  split; [symmetry; apply update_length|].
  intros c' col' H'. destruct (Nat.eq_dec c c') as [<-|Hne].
  - rewrite nth_update_eq by auto. rewrite E in H'. injection H' as <-.
    destruct (insert_cases col s) as [(s' & _ & _ & ->)|[_ ->]].
    + exists []. rewrite app_nil_r. destruct col; reflexivity.
    + exists [norm (c_index col) s]. reflexivity.
  - rewrite nth_update_neq by auto. exists []. rewrite app_nil_r. destruct col'; exact H'.
Qed.

Lemma apply_ops_ext ops cols : ext cols (apply_ops cols ops).
Proof.
  revert cols; induction ops as [|op ops IH]; intros cols; [apply ext_refl|].
  eapply ext_trans; [apply apply_op_ext|apply IH].
Qed.

Lemma apply_op_other cols c s c' : c <> c' -> nth_error (apply_op cols (c, s)) c' = nth_error cols c'.
Proof.
  intros H. unfold apply_op; simpl. destruct (nth_error cols c); [|reflexivity].
  apply nth_update_neq; auto.
Qed.

Lemma apply_ops_other ops cols c' :
  (forall op, In op ops -> fst op <> c') -> nth_error (apply_ops cols ops) c' = nth_error cols c'.
Proof.
  revert cols; induction ops as [|[c s] ops IH]; intros cols H; [reflexivity|].
  simpl. rewrite IH; [|intros op Hop; apply H; right; auto].
  apply apply_op_other. apply (H (c, s)). left; reflexivity.
Qed.

Lemma apply_ops_app cols o1 o2 : apply_ops cols (o1 ++ o2) = apply_ops (apply_ops cols o1) o2.
Proof. unfold apply_ops. apply fold_left_app. Qed.

Lemma apply_ops_col cols i col l :
  nth_error cols i = Some col ->
  update cols i (fold_left insert l col) = apply_ops cols (map (pair i) l).
Proof.
  revert cols col; induction l as [|s l IH]; intros cols col H; simpl.
  - apply update_same; auto.
  - assert (i < length cols) as Hi by (apply nth_error_Some; congruence).
    change (fst (i, s)) with i. unfold apply_op at 1; simpl; rewrite H.
    rewrite <- (IH (update cols i (insert col s)) (insert col s)).
    + rewrite update_update. reflexivity.
    + apply nth_update_eq; auto.
Qed.

Section Chart.
  Variable tmatch : term -> option token -> bool.
  Variable ord : nat -> nat -> nat -> list rulebody -> list rulebody.
  Variable gs : list grammar_rules.
  Variable toks : list token.
  Variable starts : list string.

  (** token of column c *)
  Definition col_tok (c : nat) : option token :=
    match c with O => None | S c' => nth_error toks c' end.

  Definition structured (cols : list column) : Prop :=
    length cols = S (length toks) /\
    forall c col, nth_error cols c = Some col -> c_index col = c /\ c_token col = col_tok c.

  Lemma ext_structured cols cols' : ext cols cols' -> structured cols -> structured cols'.
  Proof.
    intros [L H] [L1 H1]. split; [congruence|].
    intros c col' Hc. assert (c < length cols) as Hl.
    { rewrite L. apply nth_error_Some. congruence. }
    destruct (nth_error cols c) as [col|] eqn:E; [|apply nth_error_None in E; lia].
    destruct (H _ _ E) as [l El]. rewrite Hc in El. injection El as ->. simpl. apply H1; auto.
  Qed.

  (** The operations performed for one row. *)
  Definition adv (p : tstate) (t : term) : tstate :=
    mkSt (mkTerm (t_value (s_term p)) (t_type (s_term p)) (t_meta t))
         (s_rb p) (s_start p) 0 (s_dot p + 1).
  Definition comp_list (sts : list tstate) (d : tstate) : list tstate :=
    flat_map (fun p => match nxt p with
                       | Some t => if advances t d then [adv p t] else []
                       | None => [] end) sts.
  Definition pred_g_list (i j k c : nat) (g : grammar_rules) (t : term) : list tstate :=
    match lookup g (t_value t) with
    | None => []
    | Some r => map (fun b => mkSt (mkTerm (r_name r) TNonterminal MNil) (Some b) c 0 0)
                    (ord i j k (map snd (r_body r)))
    end.
  Fixpoint pred_gs_list (i j k c : nat) (l : list grammar_rules) (t : term) : list tstate :=
    match l with
    | [] => []
    | g :: l' => pred_g_list i j k c g t ++ pred_gs_list i j (S k) c l' t
    end.
  Definition pred_list (i j c : nat) (t : term) : list tstate :=
    match t_type t with
    | TNonterminal => pred_gs_list i j 0 c gs t
    | TAny | TList => [mkSt t None c 0 0]
    | _ => []
    end.
  Definition scan_list (tok : option token) (st : tstate) (t : term) : list tstate :=
    match t_type t with
    | TAny => [mkSt (mkTerm "any" TAny (t_meta t)) (s_rb st) (s_start st) 0 (s_dot st + 1)]
    | _ => if tmatch t tok then [mkSt (s_term st) (s_rb st) (s_start st) 0 (s_dot st + 1)] else []
    end.
  Definition comp_ops (cols : list column) (i : nat) (st : tstate) : list (nat * tstate) :=
    if completed st then map (pair i) (comp_list (states_of cols (s_start st)) st) else [].
  Definition next_ops (i j : nat) (st : tstate) : list (nat * tstate) :=
    match nxt st with
    | None => []
    | Some t =>
        let sc := if Nat.ltb (i + 1) (S (length toks))
                  then map (pair (i + 1)) (scan_list (col_tok (i + 1)) st t) else [] in
        match t_type (s_term st) with
        | TAny => sc
        | _ => match t_type t with
               | TNonterminal | TAny | TList => map (pair i) (pred_list i j i t)
               | TTerminal => sc
               | TEOF => []
               end
        end
    end.
  Definition row_ops (cols : list column) (i j : nat) (st : tstate) : list (nat * tstate) :=
    comp_ops cols i st ++ next_ops i j st.

  Lemma insert_index col s : c_index (insert col s) = c_index col.
  Proof. destruct (insert_cases col s) as [(s' & _ & _ & ->)|[_ ->]]; reflexivity. Qed.

  Lemma fold_insert_index l col : c_index (fold_left insert l col) = c_index col.
  Proof.
    revert col; induction l as [|s l IH]; intros col; [reflexivity|].
    simpl. rewrite IH. apply insert_index.
  Qed.

  Lemma predict_g_eq i j k g col t :
    predict_g ord i j k g col t = fold_left insert (pred_g_list i j k (c_index col) g t) col.
  Proof.
    unfold predict_g, pred_g_list. destruct (lookup g (t_value t)) as [r|]; [|reflexivity].
    generalize (ord i j k (map snd (r_body r))) as l. intros l.
    assert (forall n, c_index col = n ->
      fold_left (fun c prod => insert c (mkSt (mkTerm (r_name r) TNonterminal MNil) (Some prod) (c_index c) 0 0)) l col
      = fold_left insert (map (fun b => mkSt (mkTerm (r_name r) TNonterminal MNil) (Some b) n 0 0) l) col) as H.
    { revert col. induction l as [|b l IH]; intros col n Hn; [reflexivity|].
      simpl. rewrite Hn. apply IH. rewrite insert_index. exact Hn. }
    apply H. reflexivity.
  Qed.

  Lemma predict_gs_eq i j l : forall k col t,
    predict_gs ord i j k l col t = fold_left insert (pred_gs_list i j k (c_index col) l t) col.
  Proof.
    induction l as [|g l IH]; intros k col t; [reflexivity|].
    simpl. rewrite IH, predict_g_eq, fold_left_app, fold_insert_index. reflexivity.
  Qed.

  Lemma predict_eq i j col t :
    predict ord gs i j col t = fold_left insert (pred_list i j (c_index col) t) col.
  Proof.
    unfold predict, pred_list. destruct (t_type t); try reflexivity. apply predict_gs_eq.
  Qed.

  Lemma scan_eq col st t :
    scan tmatch col st t = fold_left insert (scan_list (c_token col) st t) col.
  Proof.
    unfold scan, scan_list. destruct (t_type t); try reflexivity;
      destruct (tmatch t (c_token col)); reflexivity.
  Qed.

  Lemma complete_loop_eq sts d : forall col,
    (forall p, In p sts -> get_next_term p = Ret (nxt p)) ->
    complete_loop sts d col = Ret (fold_left insert (comp_list sts d) col).
  Proof.
    induction sts as [|p sts IH]; intros col H; [reflexivity|].
    simpl. rewrite (H p) by (left; reflexivity). simpl.
    destruct (nxt p) as [t|].
    - destruct (advances t d); simpl; apply IH; intros q Hq; apply H; right; auto.
    - apply IH. intros q Hq; apply H; right; auto.
  Qed.

  Definition all_shaped (cols : list column) : Prop :=
    forall c s, In s (states_of cols c) -> shape c s.

  Lemma complete_eq cols i st :
    all_shaped cols -> shape i st -> i < length cols -> completed st = true ->
    complete cols i st = Ret (apply_ops cols (comp_ops cols i st)).
  Proof.
    intros Hsh Hst Hi Hc. unfold complete, comp_ops. rewrite Hc.
    destruct Hst as (_ & Hle & _).
    unfold idx. destruct (nth_error cols (s_start st)) as [src|] eqn:Es.
    2:{ apply nth_error_None in Es. lia. }
    simpl. destruct (nth_error cols i) as [col|] eqn:Ei.
    2:{ apply nth_error_None in Ei. lia. }
    simpl.
    rewrite complete_loop_eq.
    - simpl. f_equal. unfold states_of. rewrite Es. apply apply_ops_col. exact Ei.
    - intros p Hp. apply (get_next_ret (s_start st)). apply Hsh. unfold states_of. rewrite Es. exact Hp.
  Qed.

  Lemma step_next_eq cols i j st t :
    structured cols -> i < length cols -> nxt st = Some t ->
    step_next tmatch ord gs cols i j st t = Ret (apply_ops cols (next_ops i j st)).
  Proof.
    intros [Hlen Hcols] Hi Hn. unfold step_next, next_ops. rewrite Hn.
    assert ((if Nat.ltb (i + 1) (length cols)
             then nxt0 <- idx cols (i + 1) ;; Ret (update cols (i + 1) (scan tmatch nxt0 st t))
             else Ret cols)
            = Ret (apply_ops cols
                 (if Nat.ltb (i + 1) (S (length toks))
                  then map (pair (i + 1)) (scan_list (col_tok (i + 1)) st t) else []))) as Hscan.
    { rewrite Hlen. destruct (Nat.ltb (i + 1) (S (length toks))) eqn:E; [|reflexivity].
      apply Nat.ltb_lt in E. unfold idx.
      destruct (nth_error cols (i + 1)) as [col|] eqn:Ec; [|apply nth_error_None in Ec; lia].
      simpl. rewrite scan_eq. destruct (Hcols _ _ Ec) as [_ ->].
      rewrite (apply_ops_col _ _ _ _ Ec). reflexivity. }
    assert ((col <- idx cols i ;; Ret (update cols i (predict ord gs i j col t)))
            = Ret (apply_ops cols (map (pair i) (pred_list i j i t)))) as Hpred.
    { unfold idx. destruct (nth_error cols i) as [col|] eqn:Ec; [|apply nth_error_None in Ec; lia].
      simpl. rewrite predict_eq. destruct (Hcols _ _ Ec) as [-> _].
      rewrite (apply_ops_col _ _ _ _ Ec). reflexivity. }
    destruct (t_type (s_term st)); destruct (t_type t); auto.
  Qed.

  Lemma step_row_eq cols i j st :
    structured cols -> all_shaped cols -> shape i st -> i < length cols ->
    step_row tmatch ord gs cols i j st = Ret (apply_ops cols (row_ops cols i j st)).
  Proof.
    intros Hs Hsh Hst Hi. unfold step_row, row_ops.
    rewrite (is_completed_ret i st Hst), (get_next_ret i st Hst). simpl.
    assert ((if completed st then complete cols i st else Ret cols)
            = Ret (apply_ops cols (comp_ops cols i st))) as ->.
    { destruct (completed st) eqn:E; [apply complete_eq; auto|].
      unfold comp_ops. rewrite E. reflexivity. }
    simpl. rewrite apply_ops_app.
    destruct (nxt st) as [t|] eqn:En.
    - apply step_next_eq; auto.
      + eapply ext_structured; [apply apply_ops_ext|exact Hs].
      + destruct (apply_ops_ext (comp_ops cols i st) cols) as [<- _]. exact Hi.
    - unfold next_ops. rewrite En. reflexivity.
  Qed.

  (** ** Justification of states *)
  Inductive justified (cols : list column) (c r : nat) (s : tstate) : Prop :=
  | J_begin S : c = 0 -> In S starts -> s = begin_state S -> justified cols c r s
  | J_rule r' p t g ru h b :
      r' < r -> st_at cols c r' = Some p -> nxt p = Some t -> t_type t = TNonterminal ->
      In g gs -> lookup g (t_value t) = Some ru -> In (h, b) (r_body ru) ->
      s = mkSt (mkTerm (r_name ru) TNonterminal MNil) (Some b) c c 0 ->
      justified cols c r s
  | J_special r' p t :
      r' < r -> st_at cols c r' = Some p -> nxt p = Some t ->
      t_type (s_term p) = TNonterminal -> t_type t = TAny \/ t_type t = TList ->
      s = mkSt t None c c 0 ->
      justified cols c r s
  | J_scan c' r' p t tok :
      c = S c' -> st_at cols c' r' = Some p -> nxt p = Some t ->
      t_type (s_term p) <> TAny -> t_type t = TTerminal ->
      nth_error toks c' = Some tok -> tmatch t (Some tok) = true ->
      s = mkSt (s_term p) (s_rb p) (s_start p) c (s_dot p + 1) ->
      justified cols c r s
  | J_any c' r' p t :
      c = S c' -> c <= length toks -> st_at cols c' r' = Some p -> nxt p = Some t ->
      t_type (s_term p) = TAny -> 
      s = mkSt (mkTerm "any" TAny (t_meta t)) (s_rb p) (s_start p) c (c - s_start p) ->
      justified cols c r s
  | J_comp rd d r0 p t :
      rd < r -> st_at cols c rd = Some d -> completed d = true ->
      st_at cols (s_start d) r0 = Some p -> (s_start d = c -> r0 < r) ->
      nxt p = Some t -> advances t d = true -> t_type (s_term p) <> TAny ->
      s = mkSt (mkTerm (t_value (s_term p)) (t_type (s_term p)) (t_meta t))
               (s_rb p) (s_start p) c (s_dot p + 1) ->
      justified cols c r s
  | J_comp_any rd d r0 p t :
      rd < r -> st_at cols c rd = Some d -> completed d = true ->
      st_at cols (s_start d) r0 = Some p -> (s_start d = c -> r0 < r) ->
      nxt p = Some t -> advances t d = true -> t_type (s_term p) = TAny ->
      s = mkSt (mkTerm (t_value (s_term p)) (t_type (s_term p)) (t_meta t))
               (s_rb p) (s_start p) c (c - s_start p) ->
      justified cols c r s.

  Lemma justified_mono cols cols' c r r' s :
    ext cols cols' -> r <= r' -> justified cols c r s -> justified cols' c r' s.
  Proof.
    intros He Hr H. pose proof (ext_st_at cols cols') as E. destruct H.
    - eapply J_begin; eauto.
    - eapply J_rule with (r' := r'0); eauto. lia.
    - eapply J_special with (r' := r'0); eauto. lia.
    - eapply J_scan; eauto.
    - eapply J_any; eauto.
    - eapply J_comp with (rd := rd) (r0 := r0); eauto. lia. intros; apply H3 in H8; lia.
    - eapply J_comp_any with (rd := rd) (r0 := r0); eauto. lia. intros; apply H3 in H8; lia.
  Qed.

  Definition all_justified (cols : list column) : Prop :=
    forall c r s, st_at cols c r = Some s -> justified cols c r s.

  (** Only the begin states may repeat (when a start rule is listed twice). *)
  Definition distinct (cols : list column) : Prop :=
    forall c r1 r2 s1 s2, r1 < r2 -> st_at cols c r1 = Some s1 -> st_at cols c r2 = Some s2 ->
      state_equal s1 s2 = true -> c = 0 /\ r2 < length starts.

  Definition Inv (cols : list column) : Prop :=
    structured cols /\ all_justified cols /\ distinct cols.

  Lemma justified_shape cols : all_justified cols -> all_shaped cols.
  Proof.
    intros HJ.
    assert (forall c r s, st_at cols c r = Some s -> shape c s) as H.
    { induction c as [c IHc] using (well_founded_induction lt_wf).
      induction r as [r IHr] using (well_founded_induction lt_wf).
      intros s Hs. destruct (HJ _ _ _ Hs); subst; unfold shape, begin_state; simpl.
      - repeat split; auto. left. split; auto. eexists; reflexivity.
      - repeat split; auto. left. split; auto. eexists; reflexivity.
      - repeat split; auto.
      - assert (shape c' p) as (Hp1 & Hp2 & Hp3) by (eapply IHc; eauto).
        repeat split; auto.
      - assert (shape c' p) as (Hp1 & Hp2 & Hp3) by (eapply IHc; eauto).
        repeat split; auto.
      - assert (shape c d) as (Hd1 & Hd2 & _) by (eapply IHr; eauto).
        assert (shape (s_start d) p) as (Hp1 & Hp2 & Hp3).
        { destruct (Nat.eq_dec (s_start d) c) as [Heq|Hne].
          - match goal with Hc : s_start d = c -> _ |- _ => specialize (Hc Heq) end.
            rewrite Heq in *. eapply IHr; eauto.
          - eapply (IHc (s_start d)); eauto. lia. }
        repeat split; auto. lia.
      - assert (shape c d) as (Hd1 & Hd2 & _) by (eapply IHr; eauto).
        assert (shape (s_start d) p) as (Hp1 & Hp2 & Hp3).
        { destruct (Nat.eq_dec (s_start d) c) as [Heq|Hne].
          - match goal with Hc : s_start d = c -> _ |- _ => specialize (Hc Heq) end.
            rewrite Heq in *. eapply IHr; eauto.
          - eapply (IHc (s_start d)); eauto. lia. }
        repeat split; auto. lia. }
    intros c s Hin. apply In_nth_error in Hin as [r Hr]. eapply H; eauto.
  Qed.

  Lemma st_at_shape cols c r s : all_shaped cols -> st_at cols c r = Some s -> shape c s.
  Proof. intros H Hs. apply H. eapply nth_error_In; eauto. Qed.

  Lemma st_at_len cols c r s : st_at cols c r = Some s -> r < length (states_of cols c).
  Proof. intros H. apply nth_error_Some. unfold st_at in H. congruence. Qed.

  Lemma st_at_col cols c r s : st_at cols c r = Some s -> c < length cols.
  Proof.
    unfold st_at, states_of. intros H. apply nth_error_Some.
    destruct (nth_error cols c); [congruence|]. destruct r; discriminate.
  Qed.

  Lemma states_of_apply_op cols c s col :
    nth_error cols c = Some col ->
    states_of (apply_op cols (c, s)) c = c_states (insert col s).
  Proof.
    intros H. unfold states_of, apply_op; simpl. rewrite H. rewrite nth_update_eq; auto.
    apply nth_error_Some. congruence.
  Qed.

  Lemma states_of_other cols c s c' :
    c <> c' -> states_of (apply_op cols (c, s)) c' = states_of cols c'.
  Proof. intros H. unfold states_of. rewrite apply_op_other; auto. Qed.

  Lemma inv_apply_op cols c s :
    Inv cols -> justified cols c (length (states_of cols c)) (norm c s) -> length starts <= length (states_of cols 0) ->
    Inv (apply_op cols (c, s)).
  Proof.
    intros (HS & HJ & HD) Hj Hst.
    pose proof (apply_op_ext cols (c, s)) as He.
    destruct (nth_error cols c) as [col|] eqn:Ec.
    2:{ unfold apply_op; simpl. rewrite Ec. split; [|split]; auto. }
    destruct (proj2 HS _ _ Ec) as [Hidx _].
    split; [eapply ext_structured; eauto|].
    pose proof (states_of_apply_op cols c s col Ec) as Hso.
    assert (states_of cols c = c_states col) as Hsc by (unfold states_of; rewrite Ec; reflexivity).
    destruct (insert_cases col s) as [(s' & Hin & Heq & Hins)|[Hno Hins]]; rewrite Hins in Hso; simpl in Hso.
    - assert (apply_op cols (c, s) = cols) as ->.
      { unfold apply_op; simpl. rewrite Ec, Hins. apply update_same; auto. }
      split; auto.
    - rewrite Hidx in *.
      assert (forall c' r' s', st_at (apply_op cols (c, s)) c' r' = Some s' ->
                st_at cols c' r' = Some s' \/ (c' = c /\ r' = length (states_of cols c) /\ s' = norm c s)) as Hcase.
      { intros c' r' s' H. destruct (Nat.eq_dec c c') as [<-|Hne].
        - unfold st_at in *. rewrite Hso in H. rewrite Hsc.
          destruct (Nat.lt_trichotomy r' (length (c_states col))) as [Hl|[Hl|Hl]].
          + rewrite nth_error_app1 in H by auto. auto.
          + right. rewrite Hl in H. rewrite nth_error_app2 in H by auto.
            rewrite Nat.sub_diag in H. simpl in H. injection H as <-. auto.
          + exfalso. assert (r' < length (c_states col ++ [norm c s])).
            { apply nth_error_Some. congruence. }
            rewrite app_length in H0. simpl in H0. lia.
        - left. unfold st_at in *. rewrite states_of_other in H; auto. }
      split.
      + intros c' r' s' H. destruct (Hcase _ _ _ H) as [H'|(-> & -> & ->)].
        * eapply justified_mono; eauto.
        * eapply justified_mono; eauto.
      + intros c' r1 r2 s1 s2 Hlt H1 H2 Heq.
        destruct (Hcase _ _ _ H1) as [H1'|(-> & -> & ->)];
          destruct (Hcase _ _ _ H2) as [H2'|(E1 & E2 & E3)].
        * eapply HD; eauto.
        * subst. rewrite Hno in Heq; [discriminate|]. rewrite <- Hsc. eapply nth_error_In; eauto.
        * apply st_at_len in H2'. lia.
        * lia.
  Qed.

  Lemma inv_apply_ops ops : forall cols,
    Inv cols -> length starts <= length (states_of cols 0) ->
    (forall c s, In (c, s) ops -> justified cols c (length (states_of cols c)) (norm c s)) ->
    Inv (apply_ops cols ops).
  Proof.
    induction ops as [|[c s] ops IH]; intros cols HI Hst H; [exact HI|].
    simpl. pose proof (apply_op_ext cols (c, s)) as He. apply IH.
    - apply inv_apply_op; auto. apply H. left; reflexivity.
    - eapply Nat.le_trans; [exact Hst|]. apply ext_len; auto.
    - intros c' s' Hin. eapply justified_mono; [exact He| |apply H; right; eauto].
      apply ext_len; auto.
  Qed.

  Lemma norm_not_any c s : t_type (s_term s) <> TAny ->
    norm c s = mkSt (s_term s) (s_rb s) (s_start s) c (s_dot s).
  Proof. unfold norm. destruct (t_type (s_term s)); congruence. Qed.

  Lemma norm_any c s : t_type (s_term s) = TAny ->
    norm c s = mkSt (s_term s) (s_rb s) (s_start s) c (c - s_start s).
  Proof. unfold norm. intros ->. reflexivity. Qed.

  (** A non-terminal next term is never predicted from an (any) state. *)
  Lemma nxt_any_type s t : t_type (s_term s) = TAny -> nxt s = Some t -> t_type t = TAny.
  Proof. intros Ht Hn. apply nxt_any in Hn; auto. subst; auto. Qed.

  Lemma nxt_list_type s t : t_type (s_term s) = TList -> nxt s = Some t -> t_type t = TNonterminal.
  Proof. intros Ht Hn. apply nxt_list in Hn; auto. subst; auto. Qed.

  Lemma in_pred_gs_list i j c t s l : forall k,
    In s (pred_gs_list i j k c l t) ->
    exists k' g ru b, In g l /\ lookup g (t_value t) = Some ru
      /\ In b (ord i j k' (map snd (r_body ru)))
      /\ s = mkSt (mkTerm (r_name ru) TNonterminal MNil) (Some b) c 0 0.
  Proof.
    induction l as [|g l IH]; intros k H; [destruct H|].
    simpl in H. apply in_app_or in H as [H|H].
    - unfold pred_g_list in H. destruct (lookup g (t_value t)) as [ru|] eqn:El; [|destruct H].
      apply in_map_iff in H as (b & <- & Hb). exists k, g, ru, b. simpl. auto.
    - apply IH in H as (k' & g' & ru & b & Hg & Hr). exists k', g', ru, b. simpl. tauto.
  Qed.

  Lemma pred_gs_list_in i j c t ru b l : forall k g,
    is_order ord -> In g l -> lookup g (t_value t) = Some ru -> In b (map snd (r_body ru)) ->
    In (mkSt (mkTerm (r_name ru) TNonterminal MNil) (Some b) c 0 0) (pred_gs_list i j k c l t).
  Proof.
    induction l as [|g' l IH]; intros k g Hord Hg Hl Hb; [destruct Hg|].
    simpl. apply in_or_app. destruct Hg as [<-|Hg]; [left|right; eapply IH; eauto].
    unfold pred_g_list. rewrite Hl.
    apply (in_map (fun b => mkSt (mkTerm (r_name ru) TNonterminal MNil) (Some b) c 0 0)).
    eapply Permutation_in; [apply Permutation_sym, Hord|exact Hb].
  Qed.

  Lemma next_ops_col i j st c s : In (c, s) (next_ops i j st) ->
    (c = i \/ (c = i + 1 /\ i + 1 <= length toks)).
  Proof.
    unfold next_ops. destruct (nxt st) as [t|]; [|intros []].
    assert (In (c, s) (if Nat.ltb (i + 1) (S (length toks))
                       then map (pair (i + 1)) (scan_list (col_tok (i + 1)) st t) else []) ->
            c = i \/ (c = i + 1 /\ i + 1 <= length toks)) as Hs.
    { destruct (Nat.ltb (i + 1) (S (length toks))) eqn:E; [|intros []].
      apply Nat.ltb_lt in E. intros H. apply in_map_iff in H as (x & Hx & _).
      injection Hx as <- _. right. lia. }
    assert (forall l, In (c, s) (map (pair i) l) -> c = i) as Hp.
    { intros l H. apply in_map_iff in H as (x & Hx & _). injection Hx as -> _. reflexivity. }
    destruct (t_type (s_term st)); destruct (t_type t); auto; try (intros []); intros H; left; eapply Hp; eauto.
  Qed.

  Lemma comp_ops_col cols i st c s : In (c, s) (comp_ops cols i st) -> c = i.
  Proof.
    unfold comp_ops. destruct (completed st); [|intros []].
    intros H. apply in_map_iff in H as (x & Hx & _). congruence.
  Qed.

  Lemma in_comp_list sts d s : In s (comp_list sts d) ->
    exists p t, In p sts /\ nxt p = Some t /\ advances t d = true /\ s = adv p t.
  Proof.
    unfold comp_list. intros H. apply in_flat_map in H as (p & Hp & H).
    destruct (nxt p) as [t|] eqn:E; [|destruct H].
    destruct (advances t d) eqn:Ea; [|destruct H]. destruct H as [<-|[]].
    exists p, t. auto.
  Qed.

  Lemma comp_list_in sts d p t : In p sts -> nxt p = Some t -> advances t d = true ->
    In (adv p t) (comp_list sts d).
  Proof.
    intros Hp Hn Ha. unfold comp_list. apply in_flat_map. exists p. split; auto.
    rewrite Hn, Ha. left; reflexivity.
  Qed.

  Lemma row_ops_justified cols i j st c s :
    is_order ord -> Inv cols -> st_at cols i j = Some st -> In (c, s) (row_ops cols i j st) ->
    justified cols c (length (states_of cols c)) (norm c s).
  Proof.
    intros Hord (HS & HJ & HD) Hst Hin.
    pose proof (justified_shape cols HJ) as Hsh.
    pose proof (st_at_shape _ _ _ _ Hsh Hst) as Hss.
    pose proof (st_at_len _ _ _ _ Hst) as Hj.
    pose proof (st_at_col _ _ _ _ Hst) as Hi.
    unfold row_ops in Hin. apply in_app_or in Hin as [Hin|Hin].
    - pose proof (comp_ops_col _ _ _ _ _ Hin). subst c.
      unfold comp_ops in Hin. destruct (completed st) eqn:Ed; [|destruct Hin].
      apply in_map_iff in Hin as (x & Hx & Hin). injection Hx as ->.
      apply in_comp_list in Hin as (p & t & Hp & Hn & Ha & ->).
      apply In_nth_error in Hp as [r0 Hr0].
      assert (s_start st = i -> r0 < length (states_of cols i)) as Hlt.
      { intros <-. apply nth_error_Some. congruence. }
      destruct (ttype_eqb (t_type (s_term p)) TAny) eqn:Et.
      + apply ttype_eqb_eq in Et. eapply J_comp_any; eauto.
        rewrite norm_any by exact Et. reflexivity.
      + assert (t_type (s_term p) <> TAny) as Et' by (intros X; rewrite X in Et; discriminate).
        eapply J_comp; eauto. rewrite norm_not_any by exact Et'. reflexivity.
    - unfold next_ops in Hin. destruct (nxt st) as [t|] eqn:En; [|destruct Hin].
      assert (In (c, s) (if Nat.ltb (i + 1) (S (length toks))
                         then map (pair (i + 1)) (scan_list (col_tok (i + 1)) st t) else []) ->
              t_type (s_term st) = TAny \/ (t_type (s_term st) <> TAny /\ t_type t = TTerminal) ->
              justified cols c (length (states_of cols c)) (norm c s)) as Hscan.
      { intros H Hty. destruct (Nat.ltb (i + 1) (S (length toks))) eqn:E; [|destruct H].
        apply Nat.ltb_lt in E. apply in_map_iff in H as (x & Hx & H). injection Hx as <- ->.
        replace (i + 1) with (S i) in * by lia.
        destruct Hty as [Ha|[Ha Ht]].
        - pose proof (nxt_any_type _ _ Ha En) as Ht. unfold scan_list in H. rewrite Ht in H.
          destruct H as [<-|[]]. eapply J_any with (p := st) (t := t); eauto; lia.
        - unfold scan_list in H. rewrite Ht in H. simpl in H.
          destruct (tmatch t (nth_error toks i)) eqn:Em; [|destruct H].
          destruct H as [<-|[]].
          destruct (nth_error toks i) as [tok|] eqn:Etok.
          2:{ apply nth_error_None in Etok. lia. }
          eapply J_scan with (p := st) (t := t); eauto. rewrite norm_not_any by exact Ha. reflexivity. }
      assert (In (c, s) (map (pair i) (pred_list i j i t)) ->
              t_type (s_term st) <> TAny ->
              justified cols c (length (states_of cols c)) (norm c s)) as Hpred.
      { intros H Hna. apply in_map_iff in H as (x & Hx & H). injection Hx as <- ->.
        unfold pred_list in H. destruct (t_type t) eqn:Et; try (destruct H; fail).
        - apply in_pred_gs_list in H as (k' & g & ru & b & Hg & Hl & Hb & ->).
          apply (Permutation_in _ (Hord _ _ _ _)) in Hb. apply in_map_iff in Hb as ([h b'] & Hhb & Hb).
          simpl in Hhb. subst b'. eapply J_rule; eauto.
        - destruct H as [<-|[]]. eapply J_special; eauto.
          + destruct Hss as (_ & _ & [[Hx _]|[Hx|Hx]]); auto; [congruence|].
            pose proof (nxt_list_type _ _ Hx En). congruence.
          + unfold norm; simpl. rewrite Et. rewrite Nat.sub_diag. reflexivity.
        - destruct H as [<-|[]]. eapply J_special; eauto.
          + destruct Hss as (_ & _ & [[Hx _]|[Hx|Hx]]); auto; [congruence|].
            pose proof (nxt_list_type _ _ Hx En). congruence.
          + unfold norm; simpl. rewrite Et. reflexivity. }
      assert (t_type (s_term st) = TAny \/ t_type (s_term st) <> TAny) as [Hty|Hty]
        by (destruct (t_type (s_term st)); auto; right; discriminate).
      + rewrite Hty in Hin. apply Hscan; auto.
      + destruct (t_type (s_term st)) eqn:Es; try congruence;
          destruct (t_type t) eqn:Et; try (destruct Hin; fail);
          try (apply Hpred; auto; fail); apply Hscan; auto.
  Qed.

  (** ** Closure *)
  Definition sat (cols : list column) (op : nat * tstate) : Prop :=
    exists s', In s' (states_of cols (fst op)) /\
      (s' = norm (fst op) (snd op) \/ state_equal s' (norm (fst op) (snd op)) = true).

  Lemma sat_ext cols cols' op : ext cols cols' -> sat cols op -> sat cols' op.
  Proof.
    intros He (s' & Hin & H). exists s'. split; auto.
    apply In_nth_error in Hin as [r Hr]. apply (ext_st_at _ _ _ _ _ He) in Hr.
    eapply nth_error_In; eauto.
  Qed.

  Lemma sat_apply_op cols c s : structured cols -> c < length cols -> sat (apply_op cols (c, s)) (c, s).
  Proof.
    intros HS Hc. destruct (nth_error cols c) as [col|] eqn:Ec; [|apply nth_error_None in Ec; lia].
    destruct (proj2 HS _ _ Ec) as [Hidx _].
    unfold sat; simpl. rewrite (states_of_apply_op _ _ _ _ Ec).
    destruct (insert_cases col s) as [(s' & Hin & Heq & ->)|[_ ->]]; rewrite Hidx in *.
    - exists s'. auto.
    - simpl. exists (norm c s). split; auto. apply in_or_app. right. left; reflexivity.
  Qed.

  Lemma sat_apply_ops ops : forall cols op, structured cols -> (forall op, In op ops -> fst op < length cols) ->
    In op ops -> sat (apply_ops cols ops) op.
  Proof.
    induction ops as [|[c s] ops IH]; intros cols op HS Hl Hin; [destruct Hin|].
    simpl. pose proof (apply_op_ext cols (c, s)) as He. destruct Hin as [<-|Hin].
    - eapply sat_ext; [apply apply_ops_ext|]. apply sat_apply_op; auto.
      apply (Hl (c, s)). left; reflexivity.
    - apply IH; auto.
      + eapply ext_structured; eauto.
      + intros op' H'. destruct He as [<- _]. apply Hl. right; auto.
  Qed.

  (** The operations of a row that must be reflected in the finished chart:
      completions reaching back to an earlier column; of the completions within
      the column only those of the rows before this one. *)
  Definition due_ops (cols : list column) (i j : nat) (st : tstate) : list (nat * tstate) :=
    (if Nat.ltb (s_start st) i then comp_ops cols i st
     else if completed st then map (pair i) (comp_list (firstn j (states_of cols i)) st) else [])
    ++ next_ops i j st.
  Lemma comp_list_firstn n sts d s : In s (comp_list (firstn n sts) d) -> In s (comp_list sts d).
  Proof.
    unfold comp_list. rewrite !in_flat_map. intros (p & Hp & Hs). exists p. split; auto.
    rewrite <- (firstn_skipn n sts). apply in_or_app. left; exact Hp.
  Qed.
  Lemma ext_firstn cols cols' c n : ext cols cols' -> n <= length (states_of cols c) ->
    firstn n (states_of cols' c) = firstn n (states_of cols c).
  Proof.
    intros [_ H] Hn. unfold states_of in *. destruct (nth_error cols c) as [col|] eqn:E.
    - apply H in E as [l ->]. simpl. rewrite firstn_app.
      replace (n - length (c_states col)) with 0 by lia. simpl. apply app_nil_r.
    - simpl in Hn. replace n with 0 by lia. reflexivity.
  Qed.

  Definition done_to (i j : nat) (cols : list column) : Prop :=
    forall i' j' st op, st_at cols i' j' = Some st -> (i' < i \/ (i' = i /\ j' < j)) ->
      In op (due_ops cols i' j' st) -> sat cols op.

  Definition LoopInv (i j : nat) (cols : list column) : Prop :=
    Inv cols /\ length starts <= length (states_of cols 0) /\ done_to i j cols
    /\ (forall c, i + 1 < c -> states_of cols c = [])
    /\ (forall r S, nth_error starts r = Some S -> st_at cols 0 r = Some (begin_state S)).

  Lemma row_ops_fst cols i j st op : i < S (length toks) ->
    In op (row_ops cols i j st) -> (fst op = i \/ fst op = i + 1) /\ fst op < S (length toks).
  Proof.
    intros Hi Hin. destruct op as [c s]. unfold row_ops in Hin. apply in_app_or in Hin as [H|H].
    - apply comp_ops_col in H. simpl. lia.
    - apply next_ops_col in H. simpl. lia.
  Qed.

  Lemma states_of_apply_ops cols ops c :
    (forall op, In op ops -> fst op <> c) -> states_of (apply_ops cols ops) c = states_of cols c.
  Proof. intros H. unfold states_of. rewrite apply_ops_other; auto. Qed.

  Lemma loop_step cols i j st :
    is_order ord -> LoopInv i j cols -> st_at cols i j = Some st ->
    step_row tmatch ord gs cols i j st = Ret (apply_ops cols (row_ops cols i j st))
    /\ LoopInv i (S j) (apply_ops cols (row_ops cols i j st)).
  Proof.
    intros Hord (HI & Hlen & Hdone & Hemp & Hbeg) Hst.
    pose proof HI as (HS & HJ & HD).
    pose proof (justified_shape cols HJ) as Hsh.
    pose proof (st_at_shape _ _ _ _ Hsh Hst) as Hss.
    pose proof (st_at_col _ _ _ _ Hst) as Hi.
    assert (i < S (length toks)) as Hi' by (rewrite <- (proj1 HS); exact Hi).
    pose proof (apply_ops_ext (row_ops cols i j st) cols) as He.
    split; [apply step_row_eq; auto|].
    assert (forall c, c <> i -> c <> i + 1 ->
              states_of (apply_ops cols (row_ops cols i j st)) c = states_of cols c) as Hother.
    { intros c H1 H2. apply states_of_apply_ops. intros op Hop.
      destruct (row_ops_fst _ _ _ _ _ Hi' Hop). lia. }
    split; [|split; [|split; [|split]]].
    - apply inv_apply_ops; auto. intros c s Hin. eapply row_ops_justified; eauto.
    - eapply Nat.le_trans; [exact Hlen|]. apply ext_len; auto.
    - intros i' j' st' op Hst' Hpos Hop.
      assert (i' <= i) as Hii by lia.
      assert (In op (due_ops cols i' j' st')) as Hop'.
      { unfold due_ops in *. apply in_app_or in Hop as [Hop|Hop]; apply in_or_app; [left|right; exact Hop].
        destruct (Nat.ltb (s_start st') i') eqn:El.
        - apply Nat.ltb_lt in El. unfold comp_ops in *. rewrite Hother in Hop by lia. exact Hop.
        - destruct (Nat.eq_dec i' i) as [->|Hne].
          + rewrite (ext_firstn cols) in Hop; auto. apply st_at_len in Hst. lia.
          + rewrite Hother in Hop by lia. exact Hop. }
      destruct (Nat.eq_dec i' i) as [->|Hne].
      + destruct (Nat.eq_dec j' j) as [->|Hnj].
        * apply (ext_st_at _ _ _ _ _ He) in Hst. rewrite Hst in Hst'. injection Hst' as <-.
          apply sat_apply_ops; auto.
          -- intros op' H'. rewrite (proj1 HS). apply (row_ops_fst _ _ _ _ _ Hi' H').
          -- unfold due_ops in Hop'. unfold row_ops. apply in_app_or in Hop' as [H|H]; apply in_or_app; auto.
             left. destruct (Nat.ltb (s_start st) i) eqn:El; [exact H|]. apply Nat.ltb_ge in El.
             unfold comp_ops. destruct (completed st); [|destruct H].
             destruct Hss as (_ & Hle & _). replace (s_start st) with i by lia.
             apply in_map_iff in H as (s & <- & H). apply in_map. eapply comp_list_firstn; eauto.
        * eapply sat_ext; [exact He|].
          assert (j' < length (states_of cols i)) as Hjl.
          { apply st_at_len in Hst. lia. }
          assert (exists x, st_at cols i j' = Some x) as [x Hx].
          { unfold st_at. destruct (nth_error (states_of cols i) j') eqn:E; eauto.
            apply nth_error_None in E. lia. }
          pose proof (ext_st_at _ _ _ _ _ He Hx) as Hx'. rewrite Hx' in Hst'. injection Hst' as ->.
          eapply Hdone; eauto. lia.
      + eapply sat_ext; [exact He|]. apply (Hdone i' j' st'); [|left; lia|exact Hop'].
        unfold st_at in *. rewrite Hother in Hst' by lia. exact Hst'.
    - intros c Hc. rewrite Hother by lia. apply Hemp; auto.
    - intros r S' Hr. eapply ext_st_at; eauto.
  Qed.

  Lemma col_loop_inv fuel : forall cols i j cols',
    is_order ord -> LoopInv i j cols -> col_loop tmatch ord gs fuel cols i j = Ret cols' ->
    ext cols cols' /\ LoopInv (S i) 0 cols' /\ (forall c, c < i -> states_of cols' c = states_of cols c).
  Proof.
    induction fuel as [|fuel IH]; intros cols i j cols' Hord HL H; [discriminate|].
    simpl in H. unfold idx in H. destruct (nth_error cols i) as [col|] eqn:Ec; [|discriminate].
    simpl in H. destruct (nth_error (c_states col) j) as [st|] eqn:Es.
    - assert (st_at cols i j = Some st) as Hst by (unfold st_at, states_of; rewrite Ec; exact Es).
      destruct (loop_step cols i j st Hord HL Hst) as [E HL']. rewrite E in H. simpl in H.
      destruct (IH _ _ _ _ Hord HL' H) as (He & HL'' & Hpre).
      split; [|split]; auto.
      + eapply ext_trans; [apply apply_ops_ext|exact He].
      + intros c Hc. rewrite Hpre by auto. apply states_of_apply_ops. intros op Hop.
        assert (i < S (length toks)) as Hi'.
        { destruct HL as ((HS & _) & _). rewrite <- (proj1 HS). apply nth_error_Some. congruence. }
        destruct (row_ops_fst _ _ _ _ _ Hi' Hop). lia.
    - injection H as <-. split; [apply ext_refl|]. split; [|auto].
      destruct HL as (HI & Hlen & Hdone & Hemp & Hbeg). split; [|split; [|split; [|split]]]; auto.
      + intros i' j' st op Hst Hpos Hop. eapply Hdone; eauto.
        destruct (Nat.eq_dec i' i) as [->|]; [|left; lia].
        right. split; auto. assert (j' < length (states_of cols i)) by (eapply st_at_len; eauto).
        unfold states_of in H. rewrite Ec in H. apply nth_error_None in Es. lia.
      + intros c Hc. apply Hemp. lia.
  Qed.

  Lemma cols_loop_inv fuel n : forall cols i cols',
    is_order ord -> LoopInv i 0 cols -> cols_loop tmatch ord gs fuel n cols i = Ret cols' ->
    ext cols cols' /\ LoopInv (i + n) 0 cols'.
  Proof.
    induction n as [|n IH]; intros cols i cols' Hord HL H; simpl in H.
    - injection H as <-. rewrite Nat.add_0_r. split; [apply ext_refl|exact HL].
    - destruct (col_loop tmatch ord gs fuel cols i 0) as [c1| | |] eqn:E; try discriminate.
      simpl in H. destruct (col_loop_inv _ _ _ _ _ Hord HL E) as (He & HL' & _).
      destruct (IH _ _ _ Hord HL' H) as [He' HL'']. split; [eapply ext_trans; eauto|].
      replace (i + S n) with (S i + n) by lia. exact HL''.
  Qed.

  (** ** The initial chart *)
  Lemma token_columns_nth l : forall n c col,
    nth_error (token_columns n l) c = Some col ->
    c_index col = n + c /\ c_token col = nth_error l c /\ c_states col = [].
  Proof.
    induction l as [|t l IH]; intros n [|c] col H; simpl in *; try discriminate.
    - injection H as <-. simpl. auto.
    - apply IH in H. simpl in *. destruct H as (-> & -> & ->). auto.
  Qed.

  Lemma token_columns_length l n : length (token_columns n l) = length l.
  Proof. revert n; induction l; simpl; auto. Qed.

  Definition start_columns : list column :=
    mkCol None 0 (map begin_state starts) :: token_columns 1 toks.

  Lemma start_states c : states_of start_columns c = match c with O => map begin_state starts | S _ => [] end.
  Proof.
    unfold states_of, start_columns. destruct c as [|c]; simpl; auto.
    destruct (nth_error (token_columns 1 toks) c) eqn:E; auto.
    apply token_columns_nth in E. tauto.
  Qed.

  Lemma start_inv : LoopInv 0 0 start_columns.
  Proof.
    assert (structured start_columns) as HS.
    { split; [simpl; rewrite token_columns_length; reflexivity|].
      intros [|c] col H; simpl in H.
      - injection H as <-. auto.
      - apply token_columns_nth in H as (H1 & H2 & _). simpl. auto. }
    split; [split; [exact HS|split]|split; [|split; [|split]]].
    - intros c r s H. unfold st_at in H. rewrite start_states in H.
      destruct c; [|destruct r; discriminate].
      apply nth_error_In in H. apply in_map_iff in H as (S' & <- & Hin).
      eapply J_begin; eauto.
    - intros c r1 r2 s1 s2 Hlt H1 H2 Heq. unfold st_at in *. rewrite start_states in *.
      destruct c; [|destruct r2; discriminate]. split; auto.
      rewrite <- (map_length begin_state starts). apply nth_error_Some. congruence.
    - rewrite start_states, map_length. lia.
    - intros i j st op H Hpos. lia.
    - intros c Hc. rewrite start_states. destruct c; auto; lia.
    - intros r S' Hr. unfold st_at. rewrite start_states. apply map_nth_error; auto.
  Qed.

  Lemma parse_eq fuel mf :
    starts <> [] ->
    parse tmatch ord gs fuel mf starts (init_columns toks) =
    (cols' <- cols_loop tmatch ord gs fuel (S (length toks)) start_columns 0 ;;
     fs <- all_finals (length cols') cols' ;;
     Ret (cols', if mf then firstn 1 fs else fs)).
  Proof.
    intros Hne. unfold parse. destruct starts as [|S0 l] eqn:E; [congruence|].
    cbn [init_columns idx nth_error bind c_token c_index c_states app].
    unfold init_columns. cbn [length]. rewrite token_columns_length. unfold start_columns. rewrite E. reflexivity.
  Qed.

  (** The finished chart. *)
  Definition finished (cols : list column) : Prop :=
    Inv cols /\ done_to (S (length toks)) 0 cols
    /\ (forall r S, nth_error starts r = Some S -> st_at cols 0 r = Some (begin_state S)).

  Lemma finished_begin cols S : finished cols -> In S starts -> In (begin_state S) (states_of cols 0).
  Proof.
    intros (_ & _ & Hb) Hin. apply In_nth_error in Hin as [r Hr]. apply Hb in Hr.
    eapply nth_error_In; eauto.
  Qed.

  Lemma parse_finished fuel mf cols fs :
    is_order ord -> starts <> [] ->
    parse tmatch ord gs fuel mf starts (init_columns toks) = Ret (cols, fs) ->
    finished cols /\ (exists fs0, all_finals (length cols) cols = Ret fs0
                                  /\ fs = if mf then firstn 1 fs0 else fs0).
  Proof.
    intros Hord Hne H. rewrite parse_eq in H by exact Hne.
    destruct (cols_loop tmatch ord gs fuel (S (length toks)) start_columns 0) as [c1| | |] eqn:E; try discriminate.
    cbn [bind] in H.
    destruct (all_finals (length c1) c1) as [f| | |] eqn:Ef; try discriminate. cbn [bind] in H.
    injection H as <- <-.
    destruct (cols_loop_inv _ _ _ _ _ Hord start_inv E) as [He (HI & _ & Hd & _ & Hb)].
    split; [|exists f; auto].
    split; [exact HI|]. split; [exact Hd|exact Hb].
  Qed.

  (** Closure in usable form. *)
  Lemma finished_due cols i j st op :
    finished cols -> st_at cols i j = Some st -> In op (due_ops cols i j st) -> sat cols op.
  Proof.
    intros (HI & Hd & _) Hst Hop. eapply Hd; eauto. left.
    apply st_at_col in Hst. destruct HI as (HS & _). rewrite (proj1 HS) in Hst. exact Hst.
  Qed.

  (** ** Finals *)
  Lemma col_finals_ret i sts : forall j, (forall s, In s sts -> shape i s) ->
    exists fs, col_finals i j sts = Ret fs /\
      forall c r, In (c, r) fs <->
        c = i /\ j <= r /\ exists s, nth_error sts (r - j) = Some s
           /\ t_value (s_term s) = GammaRule /\ completed s = true.
  Proof.
    induction sts as [|s sts IH]; intros j Hsh.
    - exists []. split; [reflexivity|]. intros c r. split; [intros []|].
      intros (_ & _ & s & Hs & _). destruct (r - j); discriminate.
    - destruct (IH (S j)) as (fs & Hfs & Hin); [intros; apply Hsh; right; auto|].
      assert (forall c r, (c = i /\ S j <= r /\ (exists s0, nth_error sts (r - S j) = Some s0 /\
                 t_value (s_term s0) = GammaRule /\ completed s0 = true)) <->
              (c = i /\ S j <= r /\ exists s0, nth_error (s :: sts) (r - j) = Some s0 /\
                 t_value (s_term s0) = GammaRule /\ completed s0 = true)) as Hshift.
      { intros c r. split; intros (-> & Hr & s0 & H0 & H1); (split; [reflexivity|split; [exact Hr|]]);
          exists s0; (split; [|exact H1]);
          replace (r - j) with (S (r - S j)) in * by lia; simpl in *; auto. }
      simpl. destruct (String.eqb (t_value (s_term s)) GammaRule) eqn:Eg.
      + apply String.eqb_eq in Eg. rewrite (is_completed_ret i s) by (apply Hsh; left; reflexivity).
        simpl. rewrite Hfs. simpl.
        eexists; split; [reflexivity|]. intros c r. destruct (completed s) eqn:Ec.
        * split.
          -- intros [H|H].
             ++ injection H as <- <-. split; [reflexivity|split; [lia|]].
                rewrite Nat.sub_diag. simpl. eauto.
             ++ apply Hin in H. apply Hshift in H. destruct H as (? & ? & ?). split; [auto|split; [lia|auto]].
          -- intros (-> & Hr & s0 & H0 & H1). destruct (Nat.eq_dec r j) as [->|].
             ++ left; reflexivity.
             ++ right. apply Hin. apply Hshift. split; [auto|split; [lia|eauto]].
        * split.
          -- intros H. apply Hin in H. apply Hshift in H. destruct H as (? & ? & ?). split; [auto|split; [lia|auto]].
          -- intros (-> & Hr & s0 & H0 & H1). apply Hin. apply Hshift. split; [auto|].
             destruct (Nat.eq_dec r j) as [->|]; [|split; [lia|eauto]].
             rewrite Nat.sub_diag in H0. simpl in H0. injection H0 as <-. destruct H1; congruence.
      + apply String.eqb_neq in Eg. exists fs. split; [exact Hfs|]. intros c r. split.
        -- intros H. apply Hin in H. apply Hshift in H. destruct H as (? & ? & ?). split; [auto|split; [lia|auto]].
        -- intros (-> & Hr & s0 & H0 & H1). apply Hin. apply Hshift. split; [auto|].
           destruct (Nat.eq_dec r j) as [->|]; [|split; [lia|eauto]].
           rewrite Nat.sub_diag in H0. simpl in H0. injection H0 as <-. destruct H1; congruence.
  Qed.

  Lemma all_finals_ret cols n : all_shaped cols -> n <= length cols ->
    exists fs, all_finals n cols = Ret fs /\
      (forall c r, In (c, r) fs <->
        c < n /\ exists s, st_at cols c r = Some s
           /\ t_value (s_term s) = GammaRule /\ completed s = true)
      /\ (forall l1 x y l2, fs = l1 ++ x :: y :: l2 -> fst y <= fst x).
  Proof.
    intros Hsh. induction n as [|n IH]; intros Hn.
    - exists []. split; [reflexivity|]. split.
      + intros c r. split; [intros []|intros [? _]; lia].
      + intros l1 x y l2 H. destruct l1; discriminate.
    - destruct IH as (fs & Hfs & Hin & Hord); [lia|]. simpl. unfold idx.
      destruct (nth_error cols n) as [col|] eqn:Ec; [|apply nth_error_None in Ec; lia].
      simpl. assert (states_of cols n = c_states col) as Hso by (unfold states_of; rewrite Ec; auto).
      destruct (col_finals_ret n (c_states col) 0) as (here & Hh & Hhin).
      { intros s Hs. apply Hsh. rewrite Hso. exact Hs. }
      rewrite Hh. simpl. rewrite Hfs. simpl. exists (here ++ fs). split; [reflexivity|]. split.
      + intros c r. rewrite in_app_iff, Hhin, Hin. split.
        * intros [(-> & _ & s & H0 & H1)|(Hc & s & H0 & H1)].
          -- split; [lia|]. exists s. rewrite Nat.sub_0_r in H0. unfold st_at. rewrite Hso. auto.
          -- split; [lia|]. eauto.
        * intros (Hc & s & H0 & H1). destruct (Nat.eq_dec c n) as [->|].
          -- left. split; [auto|split; [lia|]]. exists s. rewrite Nat.sub_0_r.
             unfold st_at in H0. rewrite Hso in H0. auto.
          -- right. split; [lia|eauto].
      + intros l1 x y l2 Heq.
        assert (In x (here ++ fs)) as Hx by (rewrite Heq; apply in_or_app; right; left; auto).
        assert (In y (here ++ fs)) as Hy by (rewrite Heq; apply in_or_app; right; right; left; auto).
        destruct x as [cx rx], y as [cy ry]. simpl.
        assert (cy <= n) as Hcy.
        { apply in_app_or in Hy as [Hy|Hy]; [apply Hhin in Hy; lia|apply Hin in Hy; lia]. }
        apply in_app_or in Hx as [Hx|Hx]; [apply Hhin in Hx; lia|].
        assert (forall l1, here ++ fs = l1 ++ (cx, rx) :: (cy, ry) :: l2 ->
                  cx = n \/ exists l1', fs = l1' ++ (cx, rx) :: (cy, ry) :: l2) as Hsplit.
        { clear Heq l1 Hx Hy. assert (forall c r, In (c, r) here -> c = n) as Hn' by (intros c r Hc; apply Hhin in Hc; tauto).
          clear Hhin Hh. induction here as [|h here IHh]; intros l1 H; simpl in H.
          - right. exists l1. exact H.
          - destruct l1 as [|a l1]; simpl in H; injection H as -> H.
            + left. eapply Hn'. left; reflexivity.
            + apply IHh in H; auto. intros c r Hc. eapply Hn'. right; eauto. }
        destruct (Hsplit _ Heq) as [->|[l1' Heq']]; [lia|].
        apply Hord in Heq'. exact Heq'.
  Qed.
End Chart.
