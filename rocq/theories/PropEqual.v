(** C21: the Equal methods (types_util.go:48-132, earley.go:44-59). *)
From Verif Require Import Base ModelTypes ModelEarley SpecTypes ProofEqual ProofChart.

Theorem C21_term_equal : forall t t', term_equal t t' = true <-> t = t'.
Proof. exact term_equal_eq. Qed.
Print Assumptions C21_term_equal.

Theorem C21_function_equal : forall f g, wt_fmr f -> wt_fmr g -> (fmr_equal f g = true <-> f = g).
Proof. exact fmr_equal_iff. Qed.
Print Assumptions C21_function_equal.

Theorem C21_body_equal : forall r b, wt_rb r -> wt_rb b -> (rb_equal r b = true <-> r = b).
Proof. exact rb_equal_iff. Qed.
Print Assumptions C21_body_equal.

Theorem C21_state_equal : forall s t, wt_orb (s_rb s) -> wt_orb (s_rb t) -> (state_equal s t = true <-> s = t).
Proof. exact state_equal_iff. Qed.
Print Assumptions C21_state_equal.

(** Without any condition on the arguments. *)
Theorem C21_function_symmetric : forall f g, fmr_equal f g = fmr_equal g f.
Proof. exact fmr_equal_sym. Qed.
Print Assumptions C21_function_symmetric.

Theorem C21_function_transitive :
  forall g f h, fmr_equal f g = true -> fmr_equal g h = true -> fmr_equal f h = true.
Proof. exact fmr_equal_trans. Qed.
Print Assumptions C21_function_transitive.

Theorem C21_state_symmetric : forall s t, state_equal s t = true -> state_equal t s = true.
Proof. exact state_equal_sym. Qed.
Print Assumptions C21_state_symmetric.

Theorem C21_state_transitive :
  forall s t u, state_equal s t = true -> state_equal t u = true -> state_equal s u = true.
Proof. exact state_equal_trans. Qed.
Print Assumptions C21_state_transitive.

Definition nested : fmr :=
  FMR "f" [Arg "string" (VStr "a"); Arg "func" (VFunc (FMR "g" [Arg "index" (VIdx 2); Arg "context" (VStr "@")]));
           Arg "int" (VInt 7); Arg "float" (VFloat (BigF 3 (-1)))].
Definition nested' : fmr :=
  FMR "f" [Arg "string" (VStr "a"); Arg "func" (VFunc (FMR "g" [Arg "index" (VIdx 3); Arg "context" (VStr "@")]));
           Arg "int" (VInt 7); Arg "float" (VFloat (BigF 3 (-1)))].

Example C21_example : wt_fmr nested /\ wt_fmr nested' /\ fmr_equal nested nested = true /\ fmr_equal nested nested' = false.
Proof.
  split; [repeat constructor|]. split; [repeat constructor|]. split; reflexivity.
Qed.

(** An argument tagged "string" that holds a number: Equal is not reflexive. *)
Theorem C21_untyped_reflexivity_refuted : exists f, fmr_equal f f = false.
Proof. refine (ex_intro _ (FMR "f" [Arg "string" (VInt 1)]) _). vm_compute. reflexivity. Qed.
Print Assumptions C21_untyped_reflexivity_refuted.

(** Arguments with an unknown tag are not compared at all. *)
Theorem C21_untyped_injectivity_refuted : exists f g, f <> g /\ fmr_equal f g = true.
Proof.
  refine (ex_intro _ (FMR "f" [Arg "date" (VOther 1)]) (ex_intro _ (FMR "f" [Arg "date" (VOther 2)]) (conj _ _))).
  - discriminate.
  - vm_compute. reflexivity.
Qed.
Print Assumptions C21_untyped_injectivity_refuted.
