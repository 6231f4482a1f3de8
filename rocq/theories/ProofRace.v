(** Filling the Rb field of a List state, alone and by two goroutines at once. *)
From Verif Require Import Base ModelTypes ModelEarley ModelTrees ModelApi ModelString ModelPrint ModelMutate SpecGrammar SpecMutate ProofMutate Examples.

Definition item_term (item : string) : term := mkTerm item TNonterminal MNil.
Definition list_f (dot : nat) : fmr := FMR "fmr.list" (map (fun i => Arg "index" (VIdx (Z.of_nat (i + 1)))) (seq 0 dot)).

Lemma body_upd f a g b : f_rb f = Some a -> body_of f = Some b -> body_of (mkFilling (upd (f_heap f) a g) (Some a)) = Some (g b).
Proof. unfold body_of. intros ->. cbn. apply upd_nth. Qed.
Lemma body_ptr f b : body_of f = Some b -> exists a, f_rb f = Some a.
Proof. unfold body_of. destruct (f_rb f) as [a|]; [eauto|discriminate]. Qed.

Lemma loop_alone item dot q : forall n i f f' b, i <= dot -> body_of f = Some b -> rb_terms b = repeat (item_term item) i ->
  fill_both item dot (repeat true n) (PLoop i) q f = Ret (PDone, q, f') ->
  body_of f' = Some (mkRb (repeat (item_term item) dot) (Some (list_f dot))).
Proof.
  induction n as [|n IH]; intros i f f' b Hi Hb Ht; cbn [repeat fill_both fill_step]; [discriminate|].
  destruct (body_ptr _ _ Hb) as [a Ha]. rewrite Ha. destruct (Nat.ltb_spec i dot) as [Hl|Hl]; cbn [bind fst snd]; intros H.
  - eapply (IH (S i)); [lia|eapply body_upd; eauto| |exact H]. cbn [rb_terms]. rewrite Ht.
    change [mkTerm item TNonterminal MNil] with (repeat (item_term item) 1). rewrite <- repeat_app. f_equal. lia.
  - assert (i = dot) as -> by lia. clear IH.
    assert (forall k g, fill_both item dot (repeat true k) PDone q g = Ret (PDone, q, g)) as Hdone
      by (induction k as [|k IHk]; intros g; cbn; auto).
    rewrite Hdone in H. injection H as <-. erewrite body_upd; eauto. cbn [rb_terms]. rewrite Ht. reflexivity.
Qed.
Lemma new_body f : body_of (mkFilling (f_heap f ++ [mkRb [] None]) (Some (length (f_heap f)))) = Some (mkRb [] None).
Proof. unfold body_of. cbn. rewrite nth_error_app2, Nat.sub_diag by lia. reflexivity. Qed.
Lemma fill_alone : forall s n q f f', t_type (s_term s) = TList ->
  fill_both (t_value (s_term s)) (s_dot s) (repeat true n) PNew q f = Ret (PDone, q, f') ->
  body_of f' = s_rb (with_list_rb s).
Proof.
  intros s n q f f' Ht. destruct n as [|n]; [discriminate|]. cbn [repeat fill_both fill_step bind fst snd]. intros H.
  unfold with_list_rb. rewrite Ht. cbn [s_rb]. unfold list_rb.
  eapply (loop_alone _ _ q n 0); [lia|apply new_body|reflexivity|exact H].
Qed.

(** ** Both at once *)
Lemma fill_app item dot sched1 sched2 p q f p1 q1 f1 : fill_both item dot sched1 p q f = Ret (p1, q1, f1) ->
  fill_both item dot (sched1 ++ sched2) p q f = fill_both item dot sched2 p1 q1 f1.
Proof.
  revert p q f. induction sched1 as [|[] sched1 IH]; intros p q f; cbn [app fill_both].
  - intros [= -> -> ->]. reflexivity.
  - destruct (fill_step item dot p f) as [[p' f']| | |]; cbn [bind fst snd]; try discriminate. apply IH.
  - destruct (fill_step item dot q f) as [[q' f']| | |]; cbn [bind fst snd]; try discriminate. apply IH.
Qed.
Lemma first_loop item dot q : forall n i f b, i + n <= dot -> body_of f = Some b -> exists f',
  fill_both item dot (repeat true n) (PLoop i) q f = Ret (PLoop (i + n), q, f') /\
  body_of f' = Some (mkRb (rb_terms b ++ repeat (item_term item) n) (rb_f b)).
Proof.
  induction n as [|n IH]; intros i f b Hi Hb; cbn [repeat fill_both fill_step].
  - exists f. rewrite Nat.add_0_r, app_nil_r. split; [reflexivity|]. destruct b; exact Hb.
  - destruct (body_ptr _ _ Hb) as [a Ha]. rewrite Ha. destruct (Nat.ltb_spec i dot) as [Hl|Hl]; [|lia]. cbn [bind fst snd].
    edestruct (IH (S i)) as (f' & H1 & H2); [lia|eapply body_upd; eauto|]. exists f'. rewrite H1. cbn [rb_terms rb_f] in H2.
    split; [replace (S i + n) with (i + S n) by lia; reflexivity|]. rewrite H2, <- app_assoc. reflexivity.
Qed.
Lemma second_loop item dot p : forall n i f b, i + n <= dot -> body_of f = Some b -> exists f',
  fill_both item dot (repeat false n) p (PLoop i) f = Ret (p, PLoop (i + n), f') /\
  body_of f' = Some (mkRb (rb_terms b ++ repeat (item_term item) n) (rb_f b)).
Proof.
  induction n as [|n IH]; intros i f b Hi Hb; cbn [repeat fill_both fill_step].
  - exists f. rewrite Nat.add_0_r, app_nil_r. split; [reflexivity|]. destruct b; exact Hb.
  - destruct (body_ptr _ _ Hb) as [a Ha]. rewrite Ha. destruct (Nat.ltb_spec i dot) as [Hl|Hl]; [|lia]. cbn [bind fst snd].
    edestruct (IH (S i)) as (f' & H1 & H2); [lia|eapply body_upd; eauto|]. exists f'. rewrite H1. cbn [rb_terms rb_f] in H2.
    split; [replace (S i + n) with (i + S n) by lia; reflexivity|]. rewrite H2, <- app_assoc. reflexivity.
Qed.

Lemma race_doubles : forall item dot f, exists sched f',
  fill_both item dot sched PNew PNew f = Ret (PDone, PDone, f') /\
  body_of f' = Some (mkRb (repeat (item_term item) (dot + dot)) (Some (list_f dot))).
Proof.
  intros item dot f.
  set (f1 := mkFilling (f_heap f ++ [mkRb [] None]) (Some (length (f_heap f)))).
  set (f2 := mkFilling (f_heap f1 ++ [mkRb [] None]) (Some (length (f_heap f1)))).
  assert (body_of f2 = Some (mkRb [] None)) as H2 by apply new_body.
  destruct (first_loop item dot (PLoop 0) dot 0 f2 _ (Nat.le_refl _) H2) as (f3 & R3 & H3).
  destruct (second_loop item dot (PLoop dot) dot 0 f3 _ (Nat.le_refl _) H3) as (f4 & R4 & H4).
  cbn [Nat.add rb_terms rb_f app] in *. rewrite <- repeat_app in H4.
  destruct (body_ptr _ _ H4) as [a Ha].
  assert (exists f6, fill_both item dot [true; false] (PLoop dot) (PLoop dot) f4 = Ret (PDone, PDone, f6) /\
     body_of f6 = Some (mkRb (repeat (item_term item) (dot + dot)) (Some (list_f dot)))) as H6.
  { cbn [fill_both fill_step]. rewrite Ha, Nat.ltb_irrefl. cbn [bind fst snd f_rb]. eexists. split; [reflexivity|].
    cbn [f_heap].
    pose proof (body_upd f4 a (fun b => mkRb (rb_terms b) (Some (list_f dot))) _ Ha H4) as H5.
    refine (body_upd (mkFilling _ (Some a)) a (fun b => mkRb (rb_terms b) (Some (list_f dot))) _ eq_refl H5). }
  destruct H6 as (f6 & R6 & B6).
  exists ([true; false] ++ (repeat true dot ++ (repeat false dot ++ [true; false]))), f6. split; [|exact B6].
  rewrite (fill_app item dot [true; false] _ PNew PNew f (PLoop 0) (PLoop 0) f2) by reflexivity.
  rewrite (fill_app _ _ _ _ _ _ _ _ _ _ R3), (fill_app _ _ _ _ _ _ _ _ _ _ R4). exact R6.
Qed.

(** ** What it does to the trees *)
Definition list_parse : res parse_t := Eval vm_compute in xparse id_ord g_nullable true ["q"; "q"]%string ["s"%string].
Definition list_cols : list column := Eval vm_compute in match list_parse with Ret p => p_columns p | _ => [] end.

Lemma race_loses : exists tmatch ords gs text fuel toks starts p fin ref s t sched f b m,
  is_order (ords 0) /\ earley_parse_n tmatch ords gs text fuel 0 true toks starts = Ret p
  /\ In fin (p_finals p)
  /\ read (p_columns p) ref = Ret s /\ t_type (s_term s) = TList
  /\ get_trees (p_columns p) fuel ref = Ret [t]
  /\ fill_both (t_value (s_term s)) (s_dot s) sched PNew PNew (mkFilling [] None) = Ret (PDone, PDone, f)
  /\ body_of f = Some b
  /\ build_helper_m fuel [] ref (length (rb_terms b)) (Z.of_nat (s_end s)) (write_rb (p_columns p) ref b) = Ret ([], m).
Proof.
  exists xmatch, (fun _ => id_ord), g_nullable, ""%string, 200, (xtoks ["q"; "q"]%string), ["s"%string].
  destruct list_parse as [p| | |] eqn:E; try discriminate E. exists p.
  assert (p = match list_parse with Ret p => p | _ => p end) as Hp by (rewrite E; reflexivity). unfold list_parse in Hp. subst p.
  exists (2, 4), (2, 1). do 2 eexists. exists [true; false; true; true; false; false; true; false]. do 3 eexists.
  split; [apply id_ord_ok|]. split; [vm_compute; reflexivity|]. split; [vm_compute; auto|].
  split; [vm_compute; reflexivity|]. split; [vm_compute; reflexivity|]. split; [vm_compute; reflexivity|].
  split; [vm_compute; reflexivity|]. split; [vm_compute; reflexivity|]. vm_compute. reflexivity.
Qed.

(** ** Printing *)
Lemma filled_prints hi fl s s' : filled s s' -> state_string hi fl s' = state_string hi fl s.
Proof.
  intros [->|[E ->]]; [reflexivity|]. unfold with_list_rb. rewrite E. unfold state_string. cbn [s_term]. rewrite E. reflexivity.
Qed.
Lemma filled_in_prints : forall is_print_hi float_string m m', filled_in m m' ->
  columns_string is_print_hi float_string m' = columns_string is_print_hi float_string m.
Proof.
  intros hi fl m m'. induction 1 as [|c c' m m' (E1 & E2 & Hs) _ IH]; [reflexivity|]. cbn [columns_string]. rewrite IH.
  replace (column_string hi fl c') with (column_string hi fl c); [reflexivity|]. unfold column_string. rewrite E1, E2.
  replace (map (fun s => (state_string hi fl s ++ newline)%string) (c_states c'))
    with (map (fun s => (state_string hi fl s ++ newline)%string) (c_states c)); [reflexivity|].
  clear - Hs. induction Hs as [|a b l l' H _ IH]; [reflexivity|]. cbn [map]. rewrite IH, (filled_prints _ _ _ _ H). reflexivity.
Qed.
