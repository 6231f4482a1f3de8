(** The cyclic files are grammar texts, and the files reached are among them. *)
From Verif Require Import Base ModelTypes ModelText ModelEarley ModelReader ModelGrammar
  SpecNotation SpecRefine SpecConstruct ProofRecognize ProofLoads ProofShipped ExamplesGrammar.

Definition cenv : env := xenv cyclic_files keep.
Definition cparse (t : string) := p_file [] [] 10 (runes_of t).
Lemma cparsed t ps its re : decodes t = true -> cparse t = Some (ps, its, re) -> e_text cenv t ps its re.
Proof.
  intros D H. apply decodes_ok in D as [D1 D2]. left. exists (runes_of t). split; [exact D1|]. split; [exact D2|].
  revert H. apply sound_file; [apply letters_ascii|apply digits_ascii|intros ? ? []|intros ? ? []].
Qed.
Definition cfiles : list string := map fst cyclic_files.
Definition croot_ok (t : string) (dir : string) : bool :=
  decodes t && match cparse t with Some (ps, _, _) => forallb (fun p => mem (dir ++ "/" ++ p) cfiles) ps | None => false end.
Lemma croot t dir : croot_ok t dir = true -> exists ps its re, e_text cenv t ps its re /\ forall p, In p ps -> In (dir ++ "/" ++ p)%string cfiles.
Proof.
  unfold croot_ok. intros H. apply andb_true_iff in H as [H1 H2]. destruct (cparse t) as [[[ps its] re]|] eqn:P; [|discriminate].
  exists ps, its, re. split; [exact (cparsed _ _ _ _ H1 P)|]. intros p Hp. rewrite forallb_forall in H2. apply mem_in. auto.
Qed.
Lemma cyclic_texts f : In f cfiles -> exists b ps its re, e_read cenv f = Ret b /\ e_text cenv b ps its re /\
  forall p, In p ps -> In ("d/" ++ p)%string cfiles.
Proof.
  intros H. assert (K : forallb (fun f => match e_read cenv f with Ret b => croot_ok b "d" | _ => false end) cfiles = true) by (vm_compute; reflexivity).
  rewrite forallb_forall in K. specialize (K f H). destruct (e_read cenv f) as [b| | |]; try discriminate.
  apply croot in K as (ps & its & re & K1 & K2). exists b, ps, its, re. auto.
Qed.
Lemma cyclic_root : exists ps its re, e_text cenv text_root ps its re /\
  forall f, e_reached cenv text_root "." f -> In f cfiles /\
    exists b dir ps its re, e_read cenv f = Ret b /\ e_abs cenv f = Ret dir /\ e_text cenv b ps its re.
Proof.
  destruct (croot text_root ".") as (ps & its & re & T & H); [vm_compute; reflexivity|]. exists ps, its, re. split; [exact T|].
  intros f Hf. assert (Hin : In f cfiles).
  { revert f Hf. apply (reached_within cenv (xenv_ok _ _ keep_ok) (fun f => In f cfiles) text_root "." ps its re T H).
    intros f Hf. destruct (cyclic_texts f Hf) as (b & ps' & its' & re' & E & T' & H'). exists b, "d"%string, ps', its', re'.
    split; [exact E|]. split; [reflexivity|]. auto. }
  split; [exact Hin|]. destruct (cyclic_texts f Hin) as (b & ps' & its' & re' & E & T' & _). exists b, "d"%string, ps', its', re'. auto.
Qed.
