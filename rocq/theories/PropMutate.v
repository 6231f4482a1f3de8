(** C46: asking for trees again, and what asking changes. *)
From Verif Require Import Base ModelTypes ModelEarley ModelTrees ModelApi ModelString ModelPrint ModelMutate
     SpecGrammar SpecMutate ProofMutate ProofRace Examples.

(** GetTrees writes to the chart. On a chart that earlier calls have written to it
    still has the outcome of the model that writes nothing, and its nodes show the
    same trees, also after later calls. *)
Theorem C46_trees_in_memory : forall cols m fuel ref, filled_in cols m ->
  match build_trees_m fuel ref m, get_trees cols fuel ref with
  | Ret (ps, m'), Ret ts => filled_in cols m' /\ forall m'', filled_in m' m'' -> Forall2 (shows m'') ps ts
  | Err, Err | Panic, Panic | Fuel, Fuel => True
  | _, _ => False
  end.
Proof. exact trees_in_memory. Qed.
Print Assumptions C46_trees_in_memory.

(** Any number of calls, in any order, for the same or different states: when all
    are done, the nodes of each call show its trees. *)
Theorem C46_repeated_calls : forall cols fuel refs outs m', get_all fuel refs cols = Ret (outs, m') ->
  filled_in cols m' /\
  Forall2 (fun ref ps => exists ts, get_trees cols fuel ref = Ret ts /\ Forall2 (shows m') ps ts) refs outs.
Proof. exact all_calls. Qed.
Print Assumptions C46_repeated_calls.

(** and they return if each returns alone. *)
Theorem C46_calls_return : forall cols fuel refs, (forall ref, In ref refs -> exists ts, get_trees cols fuel ref = Ret ts) ->
  exists outs m', get_all fuel refs cols = Ret (outs, m').
Proof. exact calls_return. Qed.
Print Assumptions C46_calls_return.

(** The writes do not show when the chart is printed. *)
Theorem C46_prints_same : forall is_print_hi float_string m m', filled_in m m' ->
  columns_string is_print_hi float_string m' = columns_string is_print_hi float_string m.
Proof. exact filled_in_prints. Qed.
Print Assumptions C46_prints_same.

(** The statements that fill Rb, run without interruption, give the body of the
    model. *)
Theorem C46_fill_alone : forall s n q f f', t_type (s_term s) = TList ->
  fill_both (t_value (s_term s)) (s_dot s) (repeat true n) PNew q f = Ret (PDone, q, f') ->
  body_of f' = s_rb (with_list_rb s).
Proof. exact fill_alone. Qed.
Print Assumptions C46_fill_alone.

(** Two goroutines that do it at once can leave a body with twice the items, *)
Theorem C46_race_doubles_refuted : forall item dot f, exists sched f',
  fill_both item dot sched PNew PNew f = Ret (PDone, PDone, f') /\
  body_of f' = Some (mkRb (repeat (item_term item) (dot + dot)) (Some (list_f dot))).
Proof. exact race_doubles. Qed.
Print Assumptions C46_race_doubles_refuted.

(** and then GetTrees loses trees of a parse. *)
Theorem C46_concurrent_refuted : exists tmatch ords gs text fuel toks starts p fin ref s t sched f b m,
  is_order (ords 0) /\ earley_parse_n tmatch ords gs text fuel 0 true toks starts = Ret p
  /\ In fin (p_finals p)
  /\ read (p_columns p) ref = Ret s /\ t_type (s_term s) = TList
  /\ get_trees (p_columns p) fuel ref = Ret [t]
  /\ fill_both (t_value (s_term s)) (s_dot s) sched PNew PNew (mkFilling [] None) = Ret (PDone, PDone, f)
  /\ body_of f = Some b
  /\ build_helper_m fuel [] ref (length (rb_terms b)) (Z.of_nat (s_end s)) (write_rb (p_columns p) ref b) = Ret ([], m).
Proof. exact race_loses. Qed.
Print Assumptions C46_concurrent_refuted.

(** A chart with a list, asked twice for the same final state and once for another:
    the calls return, and the chart has changed. *)
Example C46_case : exists outs m', get_all 200 [(2, 4); (1, 4); (2, 4)] list_cols = Ret (outs, m')
  /\ map (@length pnode) outs = [1; 1; 1] /\ m' <> list_cols.
Proof. do 2 eexists. split; [vm_compute; reflexivity|]. split; [vm_compute; reflexivity|]. unfold list_cols. discriminate. Qed.
Example C46_fill_case : exists f', fill_both "q" 2 (repeat true 4) PNew PNew (mkFilling [] None) = Ret (PDone, PNew, f').
Proof. eexists. vm_compute. reflexivity. Qed.
