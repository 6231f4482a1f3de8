(** An environment in which the shipped files are found. *)
From Coq Require Import Ascii.
From Verif Require Import Base ModelTypes ModelText ModelEarley ModelReader ModelGrammar
  SpecNotation SpecRefine SpecConstruct ModelShipped SpecShipped ExamplesGrammar.

Definition senv (l : list (string * string)) : env :=
  mkEnv (fun _ => false) (fun _ => false) (fun _ => Ret (BigF 1 (-1))) (fun _ => true) (fun _ => "0123456789abcdef0123"%string)
        xhash (fun _ => true) xtokenize (fun s => s) (xread (map (fun nt => ("d/" ++ fst nt, snd nt)%string) l))
        (fun _ => Ret "d"%string) (fun d p => (d ++ "/" ++ p)%string) keep.
Lemma senv_ok l : env_ok (senv l).
Proof.
  split; [intros r _; split; discriminate|]. cbn [senv e_scan e_md5 e_tokenize e_read e_abs e_ord].
  split; [intros t; split; discriminate|]. split; [intros t; cbn; lia|].
  split; [intros t; split; discriminate|].
  split; [intros f; unfold xread; destruct (lookup _ f); split; discriminate|].
  split; [intros f; split; discriminate|exact keep_ok].
Qed.
Lemma senv_tools l : tools_work (senv l).
Proof. split; [reflexivity|]. intros v. eexists. reflexivity. Qed.
Lemma senv_fractions l : fractions_scan (senv l).
Proof. split; eexists; reflexivity. Qed.
Fixpoint all_installed (l : list (string * string)) (r : list (string * string)) : bool :=
  match r with
  | [] => true
  | (n, t) :: r' => match e_read (senv l) ("d/" ++ n) with Ret t' => String.eqb t t' | _ => false end && all_installed l r'
  end.
Lemma all_installed_ok l r : all_installed l r = true -> installed (senv l) "d" r.
Proof.
  induction r as [|(n, t) r IH]; intros H name text; [intros []|]. cbn [all_installed] in H. apply andb_true_iff in H as [H1 H2].
  intros [[= <- <-]|Hin]; [|exact (IH H2 _ _ Hin)]. split; [|reflexivity].
  change (e_join (senv l) "d" n) with ("d/" ++ n)%string. destruct (e_read (senv l) ("d/" ++ n)) as [t'| | |]; try discriminate.
  apply String.eqb_eq in H1. subst t'. reflexivity.
Qed.
Lemma senv_installed l : In l shipped -> installed (senv l) "d" l.
Proof.
  intros H. apply all_installed_ok. assert (K : forallb (fun l => all_installed l l) shipped = true) by (vm_compute; reflexivity).
  rewrite forallb_forall in K. exact (K l H).
Qed.
(** names of the rules and of the included files of a result *)
Definition loaded (r : res (option grammar * world)) : option (nat * nat * list string) :=
  match r with
  | Ret (Some g, _) => Some (length (g_rules g), length (g_frames g), map g_name (g_includes g))
  | _ => None
  end.
(** Every text with a byte that is not a blank has a token. *)
Fixpoint has_mark (s : string) : bool :=
  match s with EmptyString => false | String c s' => negb (Ascii.eqb c " "%char) || has_mark s' end.
Lemma blanks_trimmed s : has_mark s = false -> trim_space s = ""%string.
Proof.
  intros H. unfold trim_space. assert (K : forall n, String.length s <= n -> trim_left n s = ""%string).
  { revert H. induction s as [|c s IH]; intros H n Hn; [destruct n; reflexivity|].
    cbn [has_mark] in H. apply orb_false_iff in H as [H1 H2]. apply negb_false_iff in H1. apply Ascii.eqb_eq in H1. subst c.
    destruct n as [|n]; [cbn in Hn; lia|]. cbn in Hn. change (trim_left (S n) (String " "%char s)) with (trim_left n (drop 0 s)).
    replace (drop 0 s) with s by (destruct s; reflexivity). apply IH; [exact H2|lia]. }
  rewrite (K _ (le_n _)). reflexivity.
Qed.
Lemma marks_split s : forall cur, (cur = ""%string \/ has_mark cur = true) -> has_mark s || has_mark cur = true ->
  exists w, In w (xsplit s cur) /\ has_mark w = true.
Proof.
  assert (A : forall a b, has_mark (a ++ b)%string = has_mark a || has_mark b).
  { induction a as [|c a IH]; intros b; [reflexivity|]. cbn. rewrite IH. apply orb_assoc. }
  induction s as [|c s IH]; intros cur Hc H; cbn [xsplit].
  - cbn in H. destruct (String.eqb cur "") eqn:E; [apply String.eqb_eq in E; subst cur; discriminate|]. exists cur. split; [left; reflexivity|exact H].
  - destruct (Ascii.eqb c " "%char || Ascii.eqb c "-"%char) eqn:E.
    + destruct (has_mark cur) eqn:M.
      * exists cur. split; [|exact M]. destruct (String.eqb cur "") eqn:E'; [apply String.eqb_eq in E'; subst cur; discriminate|]. left. reflexivity.
      * rewrite orb_false_r in H. assert (Ec : String.eqb cur "" = true) by (destruct Hc as [->|Hc]; [reflexivity|congruence]). rewrite Ec.
        cbn [has_mark] in H. destruct (Ascii.eqb c " "%char) eqn:E1.
        -- cbn [negb orb] in H. destruct (IH ""%string (or_introl eq_refl)) as (w & H1 & H2); [rewrite H; reflexivity|]. exists w. split; [right; exact H1|exact H2].
        -- exists (String c ""). split; [left; reflexivity|]. cbn. rewrite E1. reflexivity.
    + apply orb_false_iff in E as [E _]. apply IH.
      * right. rewrite A. cbn. rewrite E. cbn. apply orb_true_r.
      * rewrite A. cbn. rewrite E. cbn. rewrite orb_true_r. apply orb_true_r.
Qed.
Lemma words_marked l i w : In w l -> has_mark w = true -> exists k, In k (xwords i l) /\ tok_type k <> KSpace.
Proof.
  revert i. induction l as [|a l IH]; intros i H0 M; [destruct H0|]. destruct H0 as [->|H].
  - exists (xword i w). split; [left; reflexivity|]. unfold xword. cbn. destruct (String.eqb w " ") eqn:E.
    + apply String.eqb_eq in E. subst w. discriminate.
    + destruct (String.eqb w "-"); discriminate.
  - destruct (IH (S i) H M) as (k & H1 & H2). exists k. split; [right; exact H1|exact H2].
Qed.
Lemma senv_texts l : texts_have_tokens (senv l).
Proof.
  intros v ks Hv. change (xtokenize v = Ret ks -> exists k, In k ks /\ tok_type k <> KSpace). intros [= <-].
  destruct (has_mark v) eqn:M; [|exfalso; apply Hv, blanks_trimmed; exact M].
  destruct (marks_split v ""%string (or_introl eq_refl)) as (w & H1 & H2); [rewrite M; reflexivity|]. exact (words_marked _ 0 w H1 H2).
Qed.
