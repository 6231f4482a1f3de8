(** A text of the notation has one reading. *)
From Verif Require Import Base ModelTypes ModelText ModelEarley ModelReader ModelGrammar
  SpecGrammar SpecNotation SpecRefine SpecConstruct ProofReader ProofReaderMain ProofGrammar ProofConstruct.

Lemma fmr_dec : forall f g : fmr, {f = g} + {f <> g}.
Proof.
  fix IH 1. intros [fn args] [fn' args']. destruct (string_dec fn fn') as [<-|N]; [|right; congruence].
  assert (H : {args = args'} + {args <> args'}).
  { revert args'. induction args as [|[ty v] args IHa]; intros [|[ty' v'] args']; [left; reflexivity|right; discriminate..|].
    destruct (IHa args') as [<-|N]; [|right; congruence].
    destruct (string_dec ty ty') as [<-|N]; [|right; congruence].
    assert (V : {v = v'} + {v <> v'}).
    { destruct v as [s|z|[m x]|i|f|n], v' as [s'|z'|[m' x']|i'|f'|n']; try (right; discriminate).
      - destruct (string_dec s s') as [<-|N]; [left; reflexivity|right; congruence].
      - destruct (Z.eq_dec z z') as [<-|N]; [left; reflexivity|right; congruence].
      - destruct (Z.eq_dec m m') as [<-|N]; [|right; congruence]. destruct (Z.eq_dec x x') as [<-|N]; [left; reflexivity|right; congruence].
      - destruct (Z.eq_dec i i') as [<-|N]; [left; reflexivity|right; congruence].
      - destruct (IH f f') as [<-|N]; [left; reflexivity|right; congruence].
      - destruct (N.eq_dec n n') as [<-|N]; [left; reflexivity|right; congruence]. }
    destruct V as [<-|N]; [left; reflexivity|right; congruence]. }
  destruct H as [<-|N]; [left; reflexivity|right; congruence].
Defined.
Lemma body_dec : forall b b' : rulebody, {b = b'} + {b <> b'}.
Proof.
  assert (M : forall m m' : meta, {m = m'} + {m <> m'}).
  { decide equality; try apply string_dec; decide equality; apply Z.eq_dec. }
  assert (T : forall t t' : term, {t = t'} + {t <> t'}).
  { decide equality; [decide equality|apply string_dec]. }
  decide equality; [decide equality; apply fmr_dec|apply list_eq_dec, T].
Defined.

Section Unique.
  Variables letter_hi digit_hi : rune -> bool.
  Variable scan_float : string -> res bigf.
  Variable regexp_ok : string -> bool.
  Variable md5 : string -> string.
  Hypothesis Htab : unicode_tables letter_hi digit_hi.
  Notation text_of := (text_of letter_hi digit_hi scan_float regexp_ok md5).

  (** reading the text twice gives the same maps, for every hash *)
  Lemma text_maps d ps its l ps' its' l' : text_of d ps its l -> text_of d ps' its' l' -> forall hash frame,
    add_items hash frame [] its = add_items hash frame [] its' /\ put_all [] l = put_all [] l'.
  Proof using Htab.
    intros T T' hash frame.
    set (load := fun (fs : list string) (p : string) => Ret (@None (list grammar * list (string * string)), fs ++ [p])).
    assert (A : forall ps fs gs re, load_all load fs gs re ps = Ret ((gs, fs ++ ps), re)).
    { clear. induction ps as [|p ps IH]; intros fs gs re; cbn [load_all]; [rewrite app_nil_r; reflexivity|].
      unfold load at 1. cbn [bind]. rewrite IH, <- app_assoc. reflexivity. }
    pose proof (read_text_at letter_hi digit_hi scan_float regexp_ok md5 hash Htab (S (String.length d)) _ load d [] ps its l T ltac:(lia)) as E1.
    pose proof (read_text_at letter_hi digit_hi scan_float regexp_ok md5 hash Htab (S (String.length d)) _ load d [] ps' its' l' T' ltac:(lia)) as E2.
    rewrite A in E1, E2. cbn [bind app] in E1, E2. rewrite E1 in E2. inversion E2. destruct frame; auto.
  Qed.

  Lemma text_bodies d ps its l ps' its' l' : text_of d ps its l -> text_of d ps' its' l' ->
    forall frame x b, In b (written its frame x) -> In b (written its' frame x).
  Proof using Htab.
    intros T T' frame x b Hb.
    set (hash := fun b' => if body_dec b' b then 1%N else 0%N).
    destruct (text_maps _ _ _ _ _ _ _ T T' hash frame) as [E _].
    pose proof (text_denotes letter_hi digit_hi scan_float regexp_ok md5 hash d ps its l frame T) as (_ & _ & D3).
    pose proof (text_denotes letter_hi digit_hi scan_float regexp_ok md5 hash d ps' its' l' frame T') as (_ & D2' & D3').
    destruct (D3 x) as (r & L & _ & _ & H). { intros C. rewrite C in Hb. destruct Hb. }
    assert (N : written its' frame x <> []). { intros C. apply D2' in C. rewrite <- E, L in C. discriminate. }
    destruct (D3' x N) as (r' & L' & _ & _ & H'). rewrite <- E, L in L'. injection L' as <-.
    specialize (H 1%N). specialize (H' 1%N). rewrite H in H'.
    assert (K : forall l, match find (fun b' => N.eqb (hash b') 1) l with Some b' => b' = b /\ In b l | None => ~ In b l end).
    { clear. unfold hash. induction l as [|a l IH]; cbn [find]; [intros []|]. destruct (body_dec a b) as [->|NE]; cbn [N.eqb Pos.eqb].
      - split; [reflexivity|left; reflexivity].
      - destruct (find _ l) as [b'|]; [destruct IH as [-> IH]; split; [reflexivity|right; exact IH]|].
        intros [C|C]; auto. }
    pose proof (K (rev (written its frame x))) as K1. pose proof (K (rev (written its' frame x))) as K2. rewrite <- H' in K2.
    destruct (find _ (rev (written its frame x))) as [b'|]; [|exfalso; apply K1; rewrite <- in_rev; exact Hb].
    destruct K2 as [_ K2]. apply in_rev. exact K2.
  Qed.

  Lemma text_names d ps its l ps' its' l' : text_of d ps its l -> text_of d ps' its' l' ->
    forall h, In h (map fst l) -> In h (map fst l').
  Proof using Htab.
    intros T T' h Hh. destruct (text_maps _ _ _ _ _ _ _ T T' (fun _ => 0%N) false) as [_ E].
    assert (H : has (put_all [] l) h) by (apply (has_put_all regexp_ok (fun _ => true) md5 (fun s _ => s)); right; exact Hh).
    rewrite E in H. apply (has_put_all regexp_ok (fun _ => true) md5 (fun s _ => s)) in H as [H|H]; [exfalso; apply H; reflexivity|exact H].
  Qed.
End Unique.

Section Env_.
  Variable e : env.
  Hypothesis HE : env_ok e.

  Lemma one_reading d ps its re ps' its' re' : e_text e d ps its re -> e_text e d ps' its' re' ->
    ps = ps' /\ (forall frame x b, In b (written its frame x) <-> In b (written its' frame x)) /\
    (forall h, In h (map fst re) <-> In h (map fst re')).
  Proof using HE.
    intros T T'. destruct HE as (Htab & _).
    split; [exact (text_paths (e_letter e) (e_digit e) (e_scan e) (e_regexp_ok e) (e_md5 e) (e_hash e) Htab d ps' its' re' ps its re T' T)|].
    split.
    - intros frame x b. split; eapply text_bodies; eassumption.
    - intros h. split; eapply text_names; eassumption.
  Qed.

  Lemma file_fresh fuel depth file gt g w' :
    from_file e fuel depth file gt = Ret (Some g, w') ->
    exists text, e_read e file = Ret text /\ exists L, e_parts e text g L /\ map rd_after L = all_rules g.
  Proof using HE.
    intros E. destruct (env_file_files e HE fuel depth file gt _ w' E) as (g0 & b & dir & E0 & Hr & _ & _ & _ & _ & Hh & Hi).
    injection E0 as <-. exists b. split; [exact Hr|].
    destruct (parts_exist _ _ _ _ _ _ _ _ _ b g Hh Hi) as (L & HL). exists L. split; [exact HL|]. eapply parts_after; exact HL.
  Qed.
End Env_.
