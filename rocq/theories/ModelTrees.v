(** Model of /repo/earley_ast.go: building parse trees from the chart. *)
From Verif Require Import Base ModelTypes ModelEarley.

(** earley_ast.go:9-14 [Node]; the back pointer p to the Parse is passed to the
    functions that need it instead of being stored. *)
Inductive node := Node (value : tstate) (children : list node).
(** earley_ast.go:10 Value *)
Definition n_value (n : node) : tstate := match n with Node v _ => v end.
(** earley_ast.go:11 Children *)
Definition n_children (n : node) : list node := match n with Node _ c => c end.

(** earley_ast.go:61-67: the rule body given to a List state before its trees
    are built: Dot copies of the item nonterminal and fmr.list($1,...,$Dot).
    The code stores it in state.Rb; nothing else writes that field afterwards
    and it is recomputed identically on every call, so the model returns the
    updated state instead of mutating it. *)
Definition list_rb (s : tstate) : rulebody :=
  mkRb (repeat (mkTerm (t_value (s_term s)) TNonterminal MNil) (s_dot s))
       (Some (FMR "fmr.list" (map (fun i => Arg "index" (VIdx (Z.of_nat (i + 1)))) (seq 0 (s_dot s))))).

(** earley_ast.go:60-68 *)
Definition with_list_rb (s : tstate) : tstate :=
  match t_type (s_term s) with
  | TList => mkSt (s_term s) (Some (list_rb s)) (s_start s) (s_end s) (s_dot s)
  | _ => s
  end.

Section Trees.
  (** earley_ast.go:13 the columns of the Parse the node belongs to *)
  Variable cols : list column.

  (** earley_ast.go:145-152: the loop over sub-trees; [k] stands for the
      recursive call of the helper with the sub-tree put in front *)
  Fixpoint over_subtrees (k : node -> res (list node)) (subs : list node) : res (list node) :=
    match subs with
    | [] => Ret []
    | sub :: subs' =>
        outs <- k sub ;;
        rest <- over_subtrees k subs' ;;
        Ret (outs ++ rest)
    end.

  (** earley_ast.go:119-153: the loop over the states of column [end_];
      [r] is the row of the first state in [sts]. The pointer comparison
      st == state is a comparison of references (column, row). *)
  Fixpoint over_states (body : nat -> tstate -> res (list node))
           (ref : nat * nat) (t : term) (start : option nat)
           (end_ r : nat) (sts : list tstate) : res (list node) :=
    match sts with
    | [] => Ret []
    | st :: sts' =>
        if Nat.eqb end_ (fst ref) && Nat.eqb r (snd ref) then Ret []
        else
          done <- is_completed st ;;
          if negb done || negb (String.eqb (t_value (s_term st)) (t_value t))
             || negb (ttype_eqb (t_type (s_term st)) (t_type t))
          then over_states body ref t start end_ (S r) sts'
          else if match start with Some n => negb (Nat.eqb (s_start st) n) | None => false end
          then over_states body ref t start end_ (S r) sts'
          else
            outs <- body r st ;;
            rest <- over_states body ref t start end_ (S r) sts' ;;
            Ret (outs ++ rest)
    end.

  (** earley_ast.go:54-71 [buildTrees] on the state at row [snd ref] of column
      [fst ref], and earley_ast.go:86-155 [buildTreesHelper]. The code's
      termIndex is [k - 1], so [k = 0] is its base case termIndex < 0; [end_] is
      an int because the terminal case subtracts 1 unconditionally. *)
  Fixpoint build_trees (fuel : nat) (ref : nat * nat) : res (list node) :=
    match fuel with
    | O => Fuel
    | S fuel' =>
        col <- idx cols (fst ref) ;;
        st <- idx (c_states col) (snd ref) ;;
        match t_type (s_term st) with
        | TAny => Ret [Node (mkSt (s_term st) None (s_start st) (s_end st) (s_end st)) []]
        | _ =>
            let st' := with_list_rb st in
            match s_rb st' with
            | None => Panic
            | Some rb =>
                build_helper fuel' [] ref st' (rb_terms rb) (length (rb_terms rb))
                             (Z.of_nat (s_end st'))
            end
        end
    end
  with build_helper (fuel : nat) (children : list node) (ref : nat * nat) (st : tstate)
                    (terms : list term) (k : nat) (end_ : Z) : res (list node) :=
    match fuel with
    | O => Fuel
    | S fuel' =>
        match k with
        | O => Ret [Node st children]
        | S ti =>
            let start := if Nat.eqb ti 0 then Some (s_start st) else None in
            t <- idx terms ti ;;
            match t_type t with
            | TTerminal =>
                let leaf := Node (mkSt t None (s_start st + ti) (s_start st + ti + 1) 0) [] in
                build_helper fuel' (leaf :: children) ref st terms ti (end_ - 1)%Z
            | _ =>
                if Z.ltb end_ 0 then Panic else
                let e := Z.to_nat end_ in
                col <- idx cols e ;;
                over_states
                  (fun r sub_st =>
                     subs <- build_trees fuel' (e, r) ;;
                     over_subtrees
                       (fun sub => build_helper fuel' (sub :: children) ref st terms ti
                                                (Z.of_nat (s_start sub_st))) subs)
                  ref t start e 0 (c_states col)
            end
        end
    end.

  (** earley_ast.go:43-52 [GetTrees] on a non-nil final state *)
  Definition get_trees (fuel : nat) (ref : nat * nat) : res (list node) := build_trees fuel ref.
End Trees.
