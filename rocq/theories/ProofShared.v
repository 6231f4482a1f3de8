(** The shared token table. *)
From Verif Require Import Base ModelTypes ModelText ModelEarley ModelQuote ModelReader ModelGrammar ModelMatch ModelShared
     SpecShared ProofReaderMain.

Lemma set_nth_in {A} (l : list A) i a x : In x (set_nth l i a) -> In x l \/ x = a.
Proof. revert i. induction l as [|y l IH]; intros [|i]; cbn; intros H; auto; destruct H as [H|H]; auto. apply IH in H as [H|H]; auto. Qed.
Lemma set_nth_same {A} (l : list A) i a b : nth_error l i = Some b -> nth_error (set_nth l i a) i = Some a.
Proof. revert i. induction l as [|y l IH]; intros [|i]; cbn; intros H; try discriminate; auto. Qed.
Lemma set_nth_other {A} (l : list A) i j a : i <> j -> nth_error (set_nth l i a) j = nth_error l j.
Proof. revert i j. induction l as [|y l IH]; intros [|i] [|j] H; cbn; try reflexivity; [congruence|apply IH; congruence]. Qed.

Lemma exec_app c tr c1 tr' c2 : exec c tr c1 -> exec c1 tr' c2 -> exec c (tr ++ tr') c2.
Proof. induction 1; intros H2; [exact H2|]. cbn. econstructor; eauto. Qed.
Lemma exec_split c tr1 tr2 c2 : exec c (tr1 ++ tr2) c2 -> exists c1, exec c tr1 c1 /\ exec c1 tr2 c2.
Proof.
  revert c. induction tr1 as [|e tr1 IH]; intros c H; cbn in H; [exists c; split; [constructor|exact H]|].
  inversion H as [|? ? c' ? ? Hs He]; subst. destruct (IH _ He) as (c1 & H1 & H2). exists c1. split; [econstructor; eauto|exact H2].
Qed.

(** Entries never disappear. *)
Lemma present_step T ps e T' ps' k : step (T, ps) e (T', ps') -> lookup T k <> None -> lookup T' k <> None.
Proof.
  intros H Hk. inversion H; subst; [exact Hk|]. rewrite lookup_put. destruct (String.eqb _ _); [discriminate|exact Hk].
Qed.
Lemma present : forall T ps tr T' ps' k, exec (T, ps) tr (T', ps') -> lookup T k <> None -> lookup T' k <> None.
Proof.
  intros T ps tr T' ps' k H. remember (T, ps) as c. remember (T', ps') as c'. revert T ps Heqc Heqc'.
  induction H as [c|c e [T1 ps1] tr c2 Hs He IH]; intros T ps -> Heqc' Hk.
  - injection Heqc' as -> ->. exact Hk.
  - eapply IH; eauto. eapply present_step; eauto.
Qed.

(** A goroutine that has entered its tokens finds all of them. *)
Lemma loaded_gen : forall tr T ps T' ps' i toks, exec (T, ps) tr (T', ps') ->
  (nth_error ps i = Some (load_tokens toks Stop) \/
   exists t, nth_error ps i = Some (Put (tok_text t) t (load_tokens toks Stop))) ->
  nth_error ps' i = Some Stop ->
  (forall t, In t toks -> ling_space t = false -> lookup T' (tok_text t) <> None) /\
  (forall t, nth_error ps i = Some (Put (tok_text t) t (load_tokens toks Stop)) -> lookup T' (tok_text t) <> None).
Proof.
  induction tr as [|e tr IH]; intros T ps T' ps' i toks He Hi Hend.
  - inversion He; subst. split; [|intros t E; congruence].
    destruct Hi as [Hi|[t Hi]]; [|congruence]. rewrite Hend in Hi. injection Hi as Hi.
    revert Hi. induction toks as [|u toks IHt]; intros Hi t Hin Hsp; [destruct Hin|].
    cbn [load_tokens] in Hi. destruct (ling_space u) eqn:E; [|discriminate].
    destruct Hin as [->|Hin]; [congruence|]. auto.
  - inversion He as [|? ? [T1 ps1] ? ? Hs He']; subst.
    assert (forall j p, nth_error ps j = Some p -> j <> i -> forall q, nth_error (set_nth ps j q) i = nth_error ps i) as Hother
      by (intros j p _ Hj q; apply set_nth_other; exact Hj).
    inversion Hs as [? ? j k next Hj|? ? j k t next Hj]; subst.
    + destruct (Nat.eq_dec j i) as [->|Hne].
      * destruct Hi as [Hi|[t Hi]]; [|congruence].
        split; [|intros t E; rewrite E in Hj; discriminate].
        pose proof Hj as Hy. rewrite Hi in Hj. injection Hj as Hj. clear Hi.
        revert Hj. induction toks as [|u toks IHt]; intros Hj; [discriminate|]. cbn [load_tokens] in Hj.
        destruct (ling_space u) eqn:Esp.
        -- intros t [<-|Hin] Hsp; [congruence|]. apply IHt; auto.
        -- injection Hj as <- <-. destruct (lookup T1 (tok_text u)) as [w|] eqn:El.
           ++ intros t [<-|Hin] Hsp.
              ** apply (present _ _ _ _ _ _ He'). congruence.
              ** eapply IH in He' as [H1 _]; [|left; eapply set_nth_same; exact Hy|exact Hend]. auto.
           ++ eapply IH in He' as [H1 H2]; [|right; exists u; eapply set_nth_same; exact Hy|exact Hend].
              intros t [<-|Hin] Hsp; [|auto]. apply H2. eapply set_nth_same. exact Hy.
      * assert (nth_error (set_nth ps j (next (lookup T1 k))) i = nth_error ps i) as E by (apply set_nth_other; exact Hne).
        eapply IH in He' as [H1 H2]; [|rewrite E; exact Hi|exact Hend]. split; [exact H1|]. intros t Ht. apply H2. rewrite E. exact Ht.
    + destruct (Nat.eq_dec j i) as [->|Hne].
      * destruct Hi as [Hi|[u Hi]].
        { exfalso. rewrite Hi in Hj. injection Hj as Hj. revert Hj. clear. induction toks as [|u toks IHt]; cbn [load_tokens]; [discriminate|].
          destruct (ling_space u); [exact IHt|discriminate]. }
        rewrite Hi in Hj. injection Hj as <- <- <-.
        assert (lookup T' (tok_text u) <> None) as Hu.
        { apply (present _ _ _ _ _ _ He'). rewrite lookup_put, String.eqb_refl. discriminate. }
        eapply IH in He' as [H1 _]; [|left; eapply set_nth_same; exact Hi|exact Hend].
        split; [exact H1|]. intros t Ht. rewrite Hi in Ht. assert (tok_text t = tok_text u) as -> by congruence. exact Hu.
      * assert (nth_error (set_nth ps j next) i = nth_error ps i) as E by (apply set_nth_other; exact Hne).
        eapply IH in He' as [H1 H2]; [|rewrite E; exact Hi|exact Hend]. split; [exact H1|]. intros t' Ht. apply H2. rewrite E. exact Ht.
Qed.

Lemma loaded : forall T ps tr T' ps' i toks, exec (T, ps) tr (T', ps') ->
  nth_error ps i = Some (load_tokens toks Stop) -> nth_error ps' i = Some Stop ->
  forall t, In t toks -> ling_space t = false -> lookup T' (tok_text t) <> None.
Proof. intros T ps tr T' ps' i toks He Hi Hend. exact (proj1 (loaded_gen _ _ _ _ _ _ _ He (or_introl Hi) Hend)). Qed.

(** ** Agreeing annotations *)
Section Alike.
  Variable ok : string -> token -> Prop.
  Definition entries_ok (T : table) : Prop := forall k t, lookup T k = Some t -> ok k t.
  Lemma ok_step T ps e T' ps' : step (T, ps) e (T', ps') -> entries_ok T -> Forall (writes_only ok) ps ->
    entries_ok T' /\ Forall (writes_only ok) ps'.
  Proof.
    intros H HT Hp. rewrite Forall_forall in *. inversion H as [? ? i k next Hi|? ? i k t next Hi]; subst.
    - split; [exact HT|]. intros p Hin. apply set_nth_in in Hin as [Hin| ->]; [auto|].
      apply nth_error_In in Hi. exact (Hp _ Hi _).
    - apply nth_error_In in Hi. destruct (Hp _ Hi) as [H1 H2]. split.
      + intros k' t'. rewrite lookup_put. destruct (String.eqb k k') eqn:E; [|apply HT].
        apply String.eqb_eq in E as <-. intros [= <-]. exact H1.
      + intros p Hin. apply set_nth_in in Hin as [Hin| ->]; auto.
  Qed.

  Hypothesis Halike : annotated_alike ok.

  Lemma saw_alike : forall T ps tr T' ps' i k r t, exec (T, ps) tr (T', ps') -> entries_ok T -> Forall (writes_only ok) ps ->
    In (Saw i k r) tr -> lookup T k = Some t -> exists u, r = Some u /\ same_annotation t u.
  Proof using Halike.
    intros T ps tr. revert T ps. induction tr as [|e tr IH]; intros T ps T' ps' i k r t He HT Hp Hin Hk; [destruct Hin|].
    inversion He as [|? ? [T1 ps1] ? ? Hs He']; subst. destruct (ok_step _ _ _ _ _ Hs HT Hp) as [HT1 Hp1].
    destruct Hin as [->|Hin].
    - inversion Hs; subst. exists t. split; [exact Hk|split; reflexivity].
    - destruct (lookup T1 k) as [t1|] eqn:E1.
      + destruct (IH _ _ _ _ _ _ _ _ He' HT1 Hp1 Hin E1) as (u & -> & Hu). exists u. split; [reflexivity|].
        assert (same_annotation t t1) as [A B] by (apply (Halike k); [apply HT; exact Hk|apply HT1; exact E1]).
        destruct Hu as [A' B']. split; congruence.
      + exfalso. apply (present_step _ _ _ _ _ k Hs); congruence.
  Qed.
End Alike.

Lemma match_alike to_lower t tok r r' : (match r, r' with
  | None, None => True | Some a, Some b => same_annotation a b | _, _ => False end) ->
  terminal_match (fun _ => r) to_lower t tok = terminal_match (fun _ => r') to_lower t tok.
Proof.
  intros H. unfold terminal_match. destruct tok as [tok|]; [|reflexivity]. destruct (negb _); [reflexivity|].
  destruct r as [a|], r' as [b|]; try contradiction; [|reflexivity]. destruct H as [-> ->]. reflexivity.
Qed.
Lemma match_key g to_lower t tok : terminal_match g to_lower t tok = terminal_match (fun _ => g (t_value t)) to_lower t tok.
Proof. reflexivity. Qed.

Lemma match_undisturbed : forall ok to_lower T ps tr T' ps', annotated_alike ok ->
  (forall k t, lookup T k = Some t -> ok k t) -> Forall (writes_only ok) ps -> exec (T, ps) tr (T', ps') ->
  forall t tok i r, lookup T (t_value t) <> None -> In (Saw i (t_value t) r) tr ->
  terminal_match (fun _ => r) to_lower t tok = terminal_match (lookup T) to_lower t tok.
Proof.
  intros ok lw T ps tr T' ps' Ha HT Hp He t tok i r Hk Hin. rewrite (match_key (lookup T)).
  destruct (lookup T (t_value t)) as [a|] eqn:E; [|congruence].
  destruct (saw_alike ok Ha _ _ _ _ _ _ _ _ _ He HT Hp Hin E) as (u & -> & H1 & H2).
  apply match_alike. split; congruence.
Qed.

Lemma load_writes (ok : string -> token -> Prop) toks next : (forall t, In t toks -> ok (tok_text t) t) -> writes_only ok next ->
  writes_only ok (load_tokens toks next).
Proof.
  intros H Hn. induction toks as [|t toks IH]; [exact Hn|]. cbn [load_tokens].
  assert (writes_only ok (load_tokens toks next)) as IH' by (apply IH; intros u Hu; apply H; right; exact Hu).
  destruct (ling_space t); [exact IH'|]. cbn [writes_only]. intros [u|]; [exact IH'|]. split; [|exact IH'].
  apply H. left. reflexivity.
Qed.

(** ** Alone *)
Lemma load_alone toks : forall T, exists tr, exec (T, [load_tokens toks Stop]) tr (new_tokens toks T, [Stop]).
Proof.
  unfold new_tokens. induction toks as [|t toks IH]; intros T; cbn [load_tokens filter]; [eexists; constructor|].
  destruct (ling_space t); cbn [negb]; [apply IH|]. cbn [fold_left]. destruct (lookup T (tok_text t)) as [u|] eqn:E.
  - destruct (IH T) as [tr H]. eexists. eapply ex_step; [apply (st_get T [_] 0); reflexivity|].
    cbn [set_nth]. rewrite E. exact H.
  - destruct (IH (put T (tok_text t) t)) as [tr H]. eexists. eapply ex_step; [apply (st_get T [_] 0); reflexivity|].
    cbn [set_nth]. rewrite E. eapply ex_step; [apply (st_put T [_] 0); reflexivity|]. cbn [set_nth]. exact H.
Qed.
Lemma alone_unique p : forall T tr T1, exec (T, [p]) tr (T1, [Stop]) -> forall tr' T2, exec (T, [p]) tr' (T2, [Stop]) -> T1 = T2.
Proof.
  induction p as [|k next IH|k t next IH]; intros T tr T1 H1 tr' T2 H2.
  - inversion H1 as [|? ? ? ? ? Hs ?]; subst; [|inversion Hs as [? ? [|[|?]] ? ? E|? ? [|[|?]] ? ? ? E]; discriminate E].
    inversion H2 as [|? ? ? ? ? Hs ?]; subst; [reflexivity|inversion Hs as [? ? [|[|?]] ? ? E|? ? [|[|?]] ? ? ? E]; discriminate E].
  - inversion H1 as [|? ? ? ? ? Hs He]; subst. inversion H2 as [|? ? ? ? ? Hs' He']; subst.
    inversion Hs as [? ? [|[|?]] ? ? E|? ? [|[|?]] ? ? ? E]; try discriminate E; subst. injection E as <- <-.
    inversion Hs' as [? ? [|[|?]] ? ? E'|? ? [|[|?]] ? ? ? E']; try discriminate E'; subst. injection E' as <- <-.
    eapply IH; eauto.
  - inversion H1 as [|? ? ? ? ? Hs He]; subst. inversion H2 as [|? ? ? ? ? Hs' He']; subst.
    inversion Hs as [? ? [|[|?]] ? ? E|? ? [|[|?]] ? ? ? E]; try discriminate E; subst. injection E as <- <- <-.
    inversion Hs' as [? ? [|[|?]] ? ? E'|? ? [|[|?]] ? ? ? E']; try discriminate E'; subst. injection E' as <- <- <-.
    eapply IH; eauto.
Qed.
Lemma alone : forall toks T tr T', exec (T, [load_tokens toks Stop]) tr (T', [Stop]) ->
  T' = new_tokens toks T /\ forall k t, lookup T k = Some t -> lookup T' k = Some t.
Proof.
  intros toks T tr T' H. destruct (load_alone toks T) as [tr' H']. rewrite (alone_unique _ _ _ _ H _ _ H'). split; [reflexivity|].
  clear. unfold new_tokens. induction (filter _ toks) as [|u l IH] in T |- *; intros k t Hk; [exact Hk|]. cbn [fold_left].
  apply IH. destruct (lookup T (tok_text u)) eqn:E; [exact Hk|]. rewrite lookup_put. destruct (String.eqb (tok_text u) k) eqn:Ek; [|exact Hk].
  apply String.eqb_eq in Ek. congruence.
Qed.

(** ** Two grammars loaded at the same time *)
Definition word (text lemma : string) : token := mkTok text KWord 0 (String.length text) 0 lemma text text.

Lemma unstable : forall to_lower, exists toks toks' t tok tr1 p T1 tr2 T2,
  In (t_value t) (map tok_text toks)
  /\ exec ([], [load_tokens toks Stop; load_tokens toks' Stop]) tr1 (T1, [Stop; p])
  /\ exec (T1, [Stop; p]) tr2 (T2, [Stop; Stop])
  /\ terminal_match (lookup T1) to_lower t (Some tok) = true
  /\ terminal_match (lookup T2) to_lower t (Some tok) = false.
Proof.
  intros lw. set (a := word "runs" "run"). set (b := word "runs" "runs").
  exists [a], [b], (mkTerm "runs" TTerminal (MStr "l")), (word "ran" "run"),
    [Saw 1 "runs" None; Saw 0 "runs" None; Wrote 0 "runs" a], (Put "runs" b Stop), [("runs"%string, a)], [Wrote 1 "runs" b], [("runs"%string, b)].
  split; [left; reflexivity|]. split; [|split; [|split; reflexivity]].
  - eapply ex_step; [refine (st_get [] _ 1 "runs" _ _); reflexivity|].
    eapply ex_step; [refine (st_get [] _ 0 "runs" _ _); reflexivity|].
    eapply ex_step; [refine (st_put [] _ 0 "runs" a _ _); reflexivity|]. apply ex_nil.
  - eapply ex_step; [refine (st_put _ _ 1 "runs" b _ _); reflexivity|]. apply ex_nil.
Qed.

(** An execution of two loaders that agree, and a goroutine that matches meanwhile. *)
Lemma alike_example : let ok := fun (k : string) (t : token) => t = word k k in
  annotated_alike ok /\
  Forall (writes_only ok)
     [load_tokens [word "x" "x"] Stop; load_tokens [word "x" "x"; word "y" "y"] Stop;
      match_token (fun s => s) (mkTerm "x" TTerminal (MStr "l")) (word "x" "x") (fun _ => Stop)] /\
  exists tr T, exec ([("x"%string, word "x" "x")],
     [load_tokens [word "x" "x"; word "y" "y"] Stop;
      match_token (fun s => s) (mkTerm "x" TTerminal (MStr "l")) (word "x" "x") (fun _ => Stop)]) tr (T, [Stop; Stop])
   /\ In (Saw 1 "x" (Some (word "x" "x"))) tr /\ lookup T "y" <> None.
Proof.
  cbv zeta. split; [intros k t u -> ->; split; reflexivity|]. split.
  - repeat apply Forall_cons; [| | |apply Forall_nil].
    + apply load_writes; [|exact I]. intros t [<-|[]]; reflexivity.
    + apply load_writes; [|exact I]. intros t [<-|[<-|[]]]; reflexivity.
    + intros r. exact I.
  - exists [Saw 0 "x" (Some (word "x" "x")); Saw 1 "x" (Some (word "x" "x")); Saw 0 "y" None; Wrote 0 "y" (word "y" "y")].
    eexists. split; [|split; [right; left; reflexivity|]].
    + eapply ex_step; [refine (st_get _ _ 0 "x" _ _); reflexivity|].
      eapply ex_step; [refine (st_get _ _ 1 "x" _ _); reflexivity|].
      eapply ex_step; [refine (st_get _ _ 0 "y" _ _); reflexivity|].
      eapply ex_step; [refine (st_put _ _ 0 "y" _ _ _); reflexivity|]. apply ex_nil.
    + cbn. discriminate.
Qed.

(** Matching takes one step and is decided by the table at that moment. *)
Lemma match_step to_lower t tok next T ps i : nth_error ps i = Some (match_token to_lower t tok next) ->
  (exists e, step (T, ps) e (T, set_nth ps i (next (terminal_match (lookup T) to_lower t (Some tok))))) /\
  forall e T' ps', step (T, ps) e (T', ps') -> nth_error ps' i <> nth_error ps i ->
    T' = T /\ ps' = set_nth ps i (next (terminal_match (lookup T) to_lower t (Some tok))).
Proof.
  intros H.
  assert (M : terminal_match (fun _ => lookup T (t_value t)) to_lower t (Some tok) = terminal_match (lookup T) to_lower t (Some tok)) by reflexivity.
  assert (O : forall (l : list prog) j x, j <> i -> nth_error (set_nth l j x) i = nth_error l i).
  { induction i as [|i0 IH] in |- *; intros l j x Hj; destruct l as [|y l], j as [|j]; cbn; try reflexivity; try lia. apply IH. lia. }
  split.
  - eexists. unfold match_token in H. pose proof (st_get T ps i _ _ H) as S. cbn beta in S. rewrite M in S. exact S.
  - intros e T' ps' S Hn. unfold match_token in H. inversion S as [T0 ps0 j k nx Hj|T0 ps0 j k tk nx Hj]; subst.
    + destruct (Nat.eq_dec j i) as [->|Hne]; [|contradiction Hn; apply O; exact Hne].
      rewrite H in Hj. injection Hj as <- <-. split; reflexivity.
    + destruct (Nat.eq_dec j i) as [->|Hne]; [|contradiction Hn; apply O; exact Hne]. rewrite H in Hj. discriminate Hj.
Qed.
