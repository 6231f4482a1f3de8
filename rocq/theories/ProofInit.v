(** The shared pipeline. *)
From Verif Require Import Base ModelInit SpecInit.
Local Open Scope list_scope.

Section Init.
  Variable pipeline tagger : Type.
  Variable default_nlp : option pipeline * bool.
  Variable dict_tagger : option tagger.
  Variable api_tagger : string -> option tagger.
  Variable add_tagger : pipeline -> tagger -> pipeline * bool.
  Variable address : string.
  Notation init := (initialise pipeline tagger default_nlp dict_tagger api_tagger add_tagger address).
  Notation Ready := (ready pipeline tagger default_nlp dict_tagger api_tagger add_tagger address).
  Notation Failed := (failed_with pipeline tagger default_nlp dict_tagger api_tagger add_tagger address).
  Notation Step := (step pipeline tagger default_nlp dict_tagger api_tagger add_tagger address).
  Notation Exec := (exec pipeline tagger default_nlp dict_tagger api_tagger add_tagger address).

  Ltac okay := first [reflexivity | eassumption].
  Lemma init_cases : (snd init = true -> exists p, Ready p /\ last (fst init) None = Some p) /\ (snd init = false -> Failed (last (fst init) None)).
  Proof using Type.
    unfold initialise. destruct default_nlp as [n [|]] eqn:E1; cbn [fst snd negb]; [|split; [discriminate|]; intros _; apply no_default; okay].
    destruct dict_tagger as [t|] eqn:E2; [|split; [discriminate|]; intros _; apply no_dict; okay].
    destruct n as [p|]; [|split; [discriminate|]; intros _; apply nil_default with (t := t); okay].
    destruct (add_tagger p t) as [p1 [|]] eqn:E3; cbn [fst snd negb]; [|split; [discriminate|]; intros _; apply (no_add _ _ _ _ _ _ _ p t); okay].
    destruct (String.eqb_spec address "") as [EA|EA]; cbn [fst snd].
    { split; [|discriminate]. intros _. exists p1. split; [|reflexivity]. exists p, t, p1. repeat (split; [okay|]). left. auto. }
    destruct (api_tagger address) as [t1|] eqn:E4; [|split; [discriminate|]; intros _; apply (no_api _ _ _ _ _ _ _ p t); okay].
    destruct (add_tagger p1 t1) as [p2 [|]] eqn:E5; cbn [fst snd]; split; try discriminate; intros _.
    - exists p2. split; [|reflexivity]. exists p, t, p1. repeat (split; [okay|]). right. split; [exact EA|]. exists t1. auto.
    - apply (no_add_api _ _ _ _ _ _ _ p t p1 t1); okay.
  Qed.
  Lemma ready_init p : Ready p -> snd init = true /\ last (fst init) None = Some p.
  Proof using Type.
    intros (base & dict & p1 & E1 & E2 & E3 & H). unfold initialise. rewrite E1, E2. cbn [fst snd negb]. rewrite E3. cbn [fst snd negb].
    destruct H as [[-> ->]|(EA & t & E4 & E5)]; [split; reflexivity|]. destruct (String.eqb_spec address ""); [contradiction|]. rewrite E4. rewrite E5. split; reflexivity.
  Qed.
  Lemma failed_init v : Failed v -> snd init = false /\ last (fst init) None = v.
  Proof using Type.
    unfold initialise. intros [n E1|n E1 E2|t E1 E2|base t p1 E1 E2 E3|base t p1 E1 E2 E3 EA E4|base t p1 t1 p2 E1 E2 E3 EA E4 E5]; rewrite E1; cbn [fst snd negb]; [auto| | | | |];
      rewrite E2; auto; rewrite E3; cbn [fst snd negb]; auto; destruct (String.eqb_spec address ""); try contradiction; rewrite E4; auto.
    rewrite E5. auto.
  Qed.
  Lemma init_nonempty : fst init <> [].
  Proof using Type.
    unfold initialise. destruct default_nlp as [n [|]]; cbn [fst snd negb]; [|discriminate]. destruct dict_tagger; [|discriminate].
    destruct n; [|discriminate]. destruct (negb _); [discriminate|]. destruct (String.eqb _ _); [discriminate|]. destruct (api_tagger address); discriminate.
  Qed.

  Lemma nth_move_eq (l : list (place pipeline)) : forall i p, i < length l -> nth_error (move l i p) i = Some p.
  Proof using Type. induction l as [|x l IH]; intros [|i] p H; cbn in *; try lia; [reflexivity|]. apply IH. lia. Qed.
  Lemma nth_move_neq (l : list (place pipeline)) : forall i j p, i <> j -> nth_error (move l i p) j = nth_error l j.
  Proof using Type. induction l as [|x l IH]; intros [|i] [|j] p H; cbn; try reflexivity; try congruence. apply IH. congruence. Qed.
  Lemma nth_some_lt {A} (l : list A) i x : nth_error l i = Some x -> i < length l.
  Proof using Type. intros H. apply nth_error_Some. congruence. Qed.
  Lemma move_length (l : list (place pipeline)) : forall i p, length (move l i p) = length l.
  Proof using Type. induction l as [|x l IH]; intros [|i] p; cbn; [reflexivity..|]. rewrite IH. reflexivity. Qed.

  (** histories so far, with what comes next *)
  Definition returns_only (v : option pipeline) (tr : list (event pipeline)) : Prop := Forall (fun e => exists j, e = Returns j v) tr.
  Definition inv (c : config pipeline) (tr : list (event pipeline)) : Prop :=
    match c_once c with
    | Unused => tr = [] /\ c_nlp c = None /\ forall j p, nth_error (c_at c) j = Some p -> p = Outside
    | Busy => exists i rest, tr = [Begins i] /\ nth_error (c_at c) i = Some (Running rest) /\ last rest (c_nlp c) = last (fst init) None
        /\ forall j p, nth_error (c_at c) j = Some p -> j <> i -> p = Outside \/ p = Waiting
    | Used => c_nlp c = last (fst init) None
        /\ (forall j p, nth_error (c_at c) j = Some p -> p = Outside \/ p = Waiting \/ p = Past)
        /\ exists i tr', tr = (if snd init then [Begins i] else [Begins i; Panics i]) ++ tr' /\ returns_only (last (fst init) None) tr'
    end.

  Lemma others (l : list (place pipeline)) i q (P : place pipeline -> Prop) : i < length l -> P q -> (forall j p, nth_error l j = Some p -> j <> i -> P p) ->
    forall j p, nth_error (move l i q) j = Some p -> P p.
  Proof using Type.
    intros Hi Hq H j p Hp. destruct (Nat.eq_dec j i) as [->|N].
    - rewrite nth_move_eq in Hp by exact Hi. congruence.
    - rewrite nth_move_neq in Hp by congruence. exact (H j p Hp N).
  Qed.
  Lemma others_ne (l : list (place pipeline)) i q (P : place pipeline -> Prop) k : (i <> k -> P q) -> (forall j p, nth_error l j = Some p -> j <> k -> P p) -> i < length l ->
    forall j p, nth_error (move l i q) j = Some p -> j <> k -> P p.
  Proof using Type.
    intros Hq H Hi j p Hp N. destruct (Nat.eq_dec j i) as [->|N'].
    - rewrite nth_move_eq in Hp by exact Hi. injection Hp as <-. auto.
    - rewrite nth_move_neq in Hp by congruence. exact (H j p Hp N).
  Qed.

  Lemma last_cons_change {A} (v : A) rest n : last (v :: rest) n = last rest v.
  Proof using Type. revert v n. induction rest as [|x rest IH]; intros v n; [reflexivity|]. change (last (x :: rest) n = last (x :: rest) v). rewrite !IH. reflexivity. Qed.

  Lemma inv_step c e c' tr : Step c e c' -> inv c tr -> inv c' (match e with Some e => tr ++ [e] | None => tr end).
  Proof using Type.
    intros S. destruct S as [n l i H|n l i H|n l i H|o n l i v rest H|o n l i H HT|o n l i H HF|o n l i H]; unfold inv; cbn [c_once c_nlp c_at].
    - intros (-> & En & HO). pose proof (nth_some_lt _ _ _ H) as Hi. exists i, (fst init). split; [reflexivity|]. split; [apply nth_move_eq; exact Hi|].
      split; [rewrite En; reflexivity|]. apply (others_ne l i); [congruence| |exact Hi]. intros j p Hp _. left. exact (HO j p Hp).
    - intros (i0 & rest & -> & HR & HL & HO). pose proof (nth_some_lt _ _ _ H) as Hi. assert (i <> i0) as N by congruence.
      exists i0, rest. split; [reflexivity|]. split; [rewrite nth_move_neq by exact N; exact HR|]. split; [exact HL|].
      apply (others_ne l i); [auto|exact HO|exact Hi].
    - intros (En & HO & HT). assert (i < length l) as Hi by (destruct H as [H|H]; exact (nth_some_lt _ _ _ H)). split; [exact En|]. split; [|exact HT].
      apply (others l i); [exact Hi|auto|]. intros j p Hp _. exact (HO j p Hp).
    - destruct o.
      + intros (_ & _ & HO). specialize (HO i _ H). discriminate.
      + intros (i0 & rest0 & -> & HR & HL & HO). pose proof (nth_some_lt _ _ _ H) as Hi. destruct (Nat.eq_dec i i0) as [->|N]; [|destruct (HO i _ H N); discriminate].
        rewrite H in HR. injection HR as <-. exists i0, rest. split; [reflexivity|]. split; [apply nth_move_eq; exact Hi|]. split; [rewrite last_cons_change in HL; exact HL|].
        apply (others_ne l i0); [congruence|exact HO|exact Hi].
      + intros (_ & HO & _). destruct (HO i _ H) as [C|[C|C]]; discriminate.
    - destruct o.
      + intros (_ & _ & HO). specialize (HO i _ H). discriminate.
      + intros (i0 & rest0 & -> & HR & HL & HO). pose proof (nth_some_lt _ _ _ H) as Hi. destruct (Nat.eq_dec i i0) as [->|N]; [|destruct (HO i _ H N); discriminate].
        rewrite H in HR. injection HR as <-. cbn [last] in HL. split; [exact HL|]. split.
        * apply (others l i0); [exact Hi|auto|]. intros j p Hp N. destruct (HO j p Hp N); auto.
        * exists i0, []. rewrite HT, app_nil_r. split; [reflexivity|constructor].
      + intros (_ & HO & _). destruct (HO i _ H) as [C|[C|C]]; discriminate.
    - destruct o.
      + intros (_ & _ & HO). specialize (HO i _ H). discriminate.
      + intros (i0 & rest0 & -> & HR & HL & HO). pose proof (nth_some_lt _ _ _ H) as Hi. destruct (Nat.eq_dec i i0) as [->|N]; [|destruct (HO i _ H N); discriminate].
        rewrite H in HR. injection HR as <-. cbn [last] in HL. split; [exact HL|]. split.
        * apply (others l i0); [exact Hi|auto|]. intros j p Hp N. destruct (HO j p Hp N); auto.
        * exists i0, []. rewrite HF, app_nil_r. split; [reflexivity|constructor].
      + intros (_ & HO & _). destruct (HO i _ H) as [C|[C|C]]; discriminate.
    - destruct o.
      + intros (_ & _ & HO). specialize (HO i _ H). discriminate.
      + intros (i0 & rest0 & -> & HR & HL & HO). destruct (Nat.eq_dec i i0) as [->|N]; [rewrite H in HR; discriminate|destruct (HO i _ H N); discriminate].
      + intros (En & HO & i0 & tr' & -> & HRet). pose proof (nth_some_lt _ _ _ H) as Hi. split; [exact En|]. split.
        * apply (others l i); [exact Hi|auto|]. intros j p Hp _. exact (HO j p Hp).
        * exists i0, (tr' ++ [Returns i n]). rewrite app_assoc. split; [reflexivity|]. apply Forall_app. split; [exact HRet|]. constructor; [|constructor]. exists i. rewrite En. reflexivity.
  Qed.
  Lemma inv_exec c tr c' : Exec c tr c' -> forall tr0, inv c tr0 -> inv c' (tr0 ++ tr).
  Proof using Type.
    induction 1 as [c|c c1 tr c2 S E IH|c e c1 tr c2 S E IH]; intros tr0 H; [rewrite app_nil_r; exact H| |].
    - apply IH. exact (inv_step _ _ _ _ S H).
    - change (e :: tr) with ([e] ++ tr). rewrite app_assoc. apply IH. exact (inv_step _ _ _ _ S H).
  Qed.
  Lemma inv_initial n : inv (initial n) [].
  Proof using Type.
    split; [reflexivity|]. split; [reflexivity|]. cbn [initial c_at]. intros j p H. apply nth_error_In in H. apply repeat_spec in H. exact H.
  Qed.
  Lemma reach_inv n tr c : Exec (initial n) tr c -> inv c tr.
  Proof using Type. intros H. exact (inv_exec _ _ _ H [] (inv_initial n)). Qed.

  Lemma good_runs p : Ready p -> forall n tr c, Exec (initial n) tr c -> good_history pipeline p tr.
  Proof using Type.
    intros R n tr c H. destruct (ready_init p R) as [HT HL]. apply reach_inv in H. unfold inv in H. destruct (c_once c).
    - left. tauto.
    - destruct H as (i & rest & -> & _). right. exists i, []. split; [reflexivity|constructor].
    - destruct H as (_ & _ & i & tr' & -> & F). rewrite HT. rewrite HL in F. right. exists i, tr'. split; [reflexivity|exact F].
  Qed.
  Lemma bad_runs v : Failed v -> forall n tr c, Exec (initial n) tr c -> bad_history pipeline v tr.
  Proof using Type.
    intros R n tr c H. destruct (failed_init v R) as [HT HL]. apply reach_inv in H. unfold inv in H. destruct (c_once c).
    - left. tauto.
    - destruct H as (i & rest & -> & _). right. exists i. left. reflexivity.
    - destruct H as (_ & _ & i & tr' & -> & F). rewrite HT. rewrite HL in F. right. exists i. right. exists tr'. split; [reflexivity|exact F].
  Qed.
  Lemma one_or_other : (exists p, Ready p) \/ (exists v, Failed v).
  Proof using Type. destruct init_cases as [H1 H2]. destruct (snd init); [left; destruct (H1 eq_refl) as (p & R & _); exists p; exact R|right; eexists; apply H2; reflexivity]. Qed.
  Lemma not_both p v : Ready p -> Failed v -> False.
  Proof using Type. intros H1 H2. destruct (ready_init p H1), (failed_init v H2). congruence. Qed.

  (** ** Every call can end *)
  Lemma exec_app c tr c' tr' c'' : Exec c tr c' -> Exec c' tr' c'' -> Exec c (tr ++ tr') c''.
  Proof using Type.
    induction 1 as [c|c c1 t c2 S E IH|c e c1 t c2 S E IH]; intros H; [exact H| |].
    - exact (e_quiet _ _ _ _ _ _ _ c c1 _ c'' S (IH H)).
    - exact (e_event _ _ _ _ _ _ _ c e c1 _ c'' S (IH H)).
  Qed.
  Lemma move_move (l : list (place pipeline)) : forall i p q, move (move l i p) i q = move l i q.
  Proof using Type. induction l as [|x l IH]; intros [|i] p q; cbn; [reflexivity..|]. rewrite IH. reflexivity. Qed.
  (** how many goroutines are inside *)
  Fixpoint inside (l : list (place pipeline)) : nat :=
    match l with [] => 0 | Outside :: l' => inside l' | _ :: l' => S (inside l') end.
  Lemma inside_move (l : list (place pipeline)) : forall i q, nth_error l i = Some q -> q <> Outside -> S (inside (move l i Outside)) = inside l.
  Proof using Type.
    induction l as [|x l IH]; intros [|i] q H N; cbn [nth_error] in H; try discriminate.
    - injection H as ->. destruct q; [congruence|reflexivity..].
    - cbn [move inside]. specialize (IH i q H N). destruct x; rewrite <- IH; reflexivity.
  Qed.
  Lemma inside_none (l : list (place pipeline)) : inside l = 0 -> Forall (fun p => p = Outside) l.
  Proof using Type. induction l as [|x l IH]; intros H; [constructor|]. destruct x; cbn in H; try discriminate. constructor; auto. Qed.
  Lemma inside_some (l : list (place pipeline)) : inside l <> 0 -> exists i q, nth_error l i = Some q /\ q <> Outside.
  Proof using Type.
    induction l as [|x l IH]; intros H; [cbn in H; congruence|]. destruct x.
    - cbn in H. destruct (IH H) as (i & q & H1 & H2). exists (S i), q. auto.
    - exists 0, Waiting. split; [reflexivity|discriminate].
    - exists 0, (Running rest). split; [reflexivity|discriminate].
    - exists 0, Past. split; [reflexivity|discriminate].
  Qed.
  (** the one that runs the function comes to its end *)
  Lemma assigns o l i : forall rest n, nth_error l i = Some (Running rest) -> Exec (mkCfg o n l) [] (mkCfg o (last rest n) (move l i (Running []))).
  Proof using Type.
    intros rest n H. pose proof (nth_some_lt _ _ _ H) as Hi.
    enough (forall rest n m, m = move l i (Running rest) -> Exec (mkCfg o n m) [] (mkCfg o (last rest n) (move l i (Running [])))) as K.
    { apply K. clear - H. revert i H. induction l as [|x l' IH]; intros [|i] H; try discriminate; cbn in *; [congruence|]. f_equal. apply IH. exact H. }
    clear rest n H. induction rest as [|v rest IH]; intros n m ->; [apply e_nil|].
    rewrite last_cons_change. eapply e_quiet; [apply s_assign; apply nth_move_eq; exact Hi|]. apply IH. apply move_move.
  Qed.
  Lemma used_ends k : forall n l, (forall j p, nth_error l j = Some p -> p = Outside \/ p = Waiting \/ p = Past) -> inside l = k ->
    exists tr c, Exec (mkCfg Used n l) tr c /\ all_outside pipeline c.
  Proof using Type.
    induction k as [|k IH]; intros n l HO Hk.
    - exists [], (mkCfg Used n l). split; [apply e_nil|]. exact (inside_none l Hk).
    - destruct (inside_some l ltac:(lia)) as (i & q & Hq & N). pose proof (nth_some_lt _ _ _ Hq) as Hi. pose proof (inside_move l i q Hq N) as HI.
      destruct (IH n (move l i Outside)) as (tr & c & E & A); [apply (others l i); [exact Hi|auto|]; intros j p Hp _; exact (HO j p Hp)|lia|].
      destruct (HO i q Hq) as [C|[->| ->]]; [congruence| |].
      + exists (Returns i n :: tr), c. split; [|exact A]. eapply e_quiet; [apply s_pass; right; exact Hq|]. eapply e_event; [apply s_return; apply nth_move_eq; exact Hi|]. rewrite move_move. exact E.
      + exists (Returns i n :: tr), c. split; [|exact A]. eapply e_event; [apply s_return; exact Hq|]. exact E.
  Qed.
  Lemma calls_can_end n tr c : Exec (initial n) tr c -> exists tr' c', Exec c tr' c' /\ all_outside pipeline c'.
  Proof using Type.
    intros H. apply reach_inv in H. unfold inv in H. destruct c as [o nl l]. cbn [c_once c_nlp c_at] in H. destruct o.
    - destruct H as (_ & _ & HO). exists [], (mkCfg Unused nl l). split; [apply e_nil|]. apply Forall_forall. intros p Hp. apply In_nth_error in Hp as [j Hp]. exact (HO j p Hp).
    - destruct H as (i & rest & _ & HR & _ & HO). pose proof (nth_some_lt _ _ _ HR) as Hi. pose proof (assigns Busy l i rest nl HR) as A.
      assert (forall q, q = Outside \/ q = Waiting \/ q = Past -> forall j p, nth_error (move l i q) j = Some p -> p = Outside \/ p = Waiting \/ p = Past) as K
        by (intros q Hq; apply (others l i); [exact Hi|exact Hq|]; intros j p Hp N; destruct (HO j p Hp N); auto).
      destruct (snd init) eqn:HS.
      + destruct (used_ends _ (last rest nl) (move l i Past) (K Past ltac:(auto)) eq_refl) as (tr' & c' & E & AO).
        exists ([] ++ tr'), c'. split; [|exact AO]. eapply exec_app; [exact A|]. eapply e_quiet; [apply s_end; [apply nth_move_eq; exact Hi|exact HS]|]. rewrite move_move. exact E.
      + destruct (used_ends _ (last rest nl) (move l i Outside) (K Outside ltac:(auto)) eq_refl) as (tr' & c' & E & AO).
        exists ([] ++ Panics i :: tr'), c'. split; [|exact AO]. eapply exec_app; [exact A|]. eapply e_event; [apply s_panic; [apply nth_move_eq; exact Hi|exact HS]|]. rewrite move_move. exact E.
    - destruct H as (_ & HO & _). exact (used_ends _ nl l HO eq_refl).
  Qed.
  (** a failure always leaves later calls without a panic: a second call returns *)
  Lemma later_calls v : Failed v -> exists c, Exec (initial 1) [Begins 0; Panics 0; Returns 0 v] c.
  Proof using Type.
    intros R. destruct (failed_init v R) as [HT HL]. eexists. eapply e_event; [apply s_begin; reflexivity|].
    change ([Panics 0; Returns 0 v]) with ([] ++ [@Panics pipeline 0; Returns 0 v]). eapply exec_app; [apply (assigns Busy _ 0 (fst init)); reflexivity|].
    rewrite HL. cbn [initial repeat move]. eapply e_event; [apply s_panic; [reflexivity|exact HT]|]. cbn [move].
    eapply e_quiet; [apply s_pass with (i := 0); left; reflexivity|]. cbn [move]. eapply e_event; [apply s_return; reflexivity|]. apply e_nil.
  Qed.
End Init.
