(** Concrete pipelines. *)
From Verif Require Import Base ModelInit SpecInit ProofInit.
Local Open Scope list_scope.

(** a pipeline is the list of its taggers, and a tagger is its name *)
Definition names := list string.
Definition started : option names * bool := (Some ["default"%string], true).
Definition dict : option string := Some "dict"%string.
Definition served (a : string) : option string := if String.eqb a "http://here" then Some "api"%string else None.
Definition added (p : names) (t : string) : names * bool := (p ++ [t], true).

Lemma plain_ready : ready names string started dict served added "" ["default"; "dict"]%string.
Proof. exists ["default"%string], "dict"%string, ["default"; "dict"]%string. repeat (split; [reflexivity|]). left. split; reflexivity. Qed.
Lemma served_ready : ready names string started dict served added "http://here" ["default"; "dict"; "api"]%string.
Proof.
  exists ["default"%string], "dict"%string, ["default"; "dict"]%string. repeat (split; [reflexivity|]). right. split; [discriminate|].
  exists "api"%string. split; reflexivity.
Qed.
Lemma nowhere_failed : failed_with names string started dict served added "http://nowhere" (Some ["default"; "dict"]%string).
Proof. apply (no_api _ _ _ _ _ _ _ ["default"%string] "dict"%string); first [reflexivity|discriminate]. Qed.
Lemma nothing_failed : failed_with names string (None, false) dict served added "" None.
Proof. apply no_default. reflexivity. Qed.

(** Two goroutines, the second one called while the first makes the pipeline. *)
Lemma two_callers : exists c, exec names string started dict served added "" (initial 2)
  [Begins 0; Returns 1 (Some ["default"; "dict"]%string); Returns 0 (Some ["default"; "dict"]%string)] c.
Proof.
  eexists. eapply e_event; [apply s_begin with (i := 0); reflexivity|]. eapply e_quiet; [apply s_assign with (i := 0); reflexivity|]. cbn.
  eapply e_quiet; [apply s_wait with (i := 1); reflexivity|]. cbn. eapply e_quiet; [apply s_assign with (i := 0); reflexivity|]. cbn.
  eapply e_quiet; [apply s_end with (i := 0); reflexivity|]. cbn. eapply e_quiet; [apply s_pass with (i := 1); right; reflexivity|]. cbn.
  eapply e_event; [apply s_return with (i := 1); reflexivity|]. cbn. eapply e_event; [apply s_return with (i := 0); reflexivity|]. apply e_nil.
Qed.
