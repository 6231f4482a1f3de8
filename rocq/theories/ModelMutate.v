(** earley_ast.go once more, with the chart as memory: nodes point to states, and
    building the trees of a List state writes the Rb field of that state. *)
From Verif Require Import Base ModelTypes ModelEarley ModelTrees.

(** A pointer to a state of the chart (column, row), or to a state allocated by
    the tree builder (earley_ast.go:56, 108), which nothing writes later. *)
Inductive sptr :=
| InChart (ref : nat * nat)
| Fresh (s : tstate).
(** earley_ast.go:9-14 [Node] with a pointer *)
Inductive pnode := PNode (value : sptr) (children : list pnode).

(** earley.go:39: the columns and their states *)
Definition memory := list column.
(** the state behind the pointer (earley_ast.go:119) *)
Definition read (m : memory) (ref : nat * nat) : res tstate :=
  col <- idx m (fst ref) ;; idx (c_states col) (snd ref).
(** changes one element (earley_ast.go:61) *)
Fixpoint upd {A} (l : list A) (i : nat) (f : A -> A) : list A :=
  match l, i with
  | [], _ => []
  | a :: l', O => f a :: l'
  | a :: l', S i' => a :: upd l' i' f
  end.
(** earley_ast.go:61-67: assigning the field Rb *)
Definition set_rb (rb : rulebody) (s : tstate) : tstate := mkSt (s_term s) (Some rb) (s_start s) (s_end s) (s_dot s).
(** earley_ast.go:61-67: the same through the pointer *)
Definition write_rb (m : memory) (ref : nat * nat) (rb : rulebody) : memory :=
  upd m (fst ref) (fun c => mkCol (c_token c) (c_index c) (upd (c_states c) (snd ref) (set_rb rb))).

(** The nodes returned, and the memory afterwards (earley_ast.go:54, 86) *)
Definition outcome := res (list pnode * memory).

(** earley_ast.go:145-152 *)
Fixpoint over_subtrees_m (k : pnode -> memory -> outcome) (subs : list pnode) (m : memory) : outcome :=
  match subs with
  | [] => Ret ([], m)
  | sub :: subs' =>
      ' r <- k sub m ;;
      ' r' <- over_subtrees_m k subs' (snd r) ;;
      Ret (fst r ++ fst r', snd r')
  end.

(** earley_ast.go:119-153; the states are read when their turn comes *)
Fixpoint over_states_m (body : nat -> tstate -> memory -> outcome) (ref : nat * nat) (t : term) (start : option nat)
         (end_ : nat) (rows : list nat) (m : memory) : outcome :=
  match rows with
  | [] => Ret ([], m)
  | r :: rows' =>
      if Nat.eqb end_ (fst ref) && Nat.eqb r (snd ref) then Ret ([], m)
      else
        st <- read m (end_, r) ;;
        done <- is_completed st ;;
        if negb done || negb (String.eqb (t_value (s_term st)) (t_value t))
           || negb (ttype_eqb (t_type (s_term st)) (t_type t))
        then over_states_m body ref t start end_ rows' m
        else if match start with Some n => negb (Nat.eqb (s_start st) n) | None => false end
        then over_states_m body ref t start end_ rows' m
        else
          ' a <- body r st m ;;
          ' b <- over_states_m body ref t start end_ rows' (snd a) ;;
          Ret (fst a ++ fst b, snd b)
  end.

(** earley_ast.go:54-71 [buildTrees], 86-155 [buildTreesHelper] *)
Fixpoint build_trees_m (fuel : nat) (ref : nat * nat) (m : memory) : outcome :=
  match fuel with
  | O => Fuel
  | S fuel' =>
      st <- read m ref ;;
      match t_type (s_term st) with
      | TAny => Ret ([PNode (Fresh (mkSt (s_term st) None (s_start st) (s_end st) (s_end st))) []], m)
      | ty =>
          let m' := match ty with TList => write_rb m ref (list_rb st) | _ => m end in
          st' <- read m' ref ;;
          match s_rb st' with
          | None => Panic
          | Some rb => build_helper_m fuel' [] ref (length (rb_terms rb)) (Z.of_nat (s_end st')) m'
          end
      end
  end
with build_helper_m (fuel : nat) (children : list pnode) (ref : nat * nat) (k : nat) (end_ : Z) (m : memory) : outcome :=
  match fuel with
  | O => Fuel
  | S fuel' =>
      match k with
      | O => Ret ([PNode (InChart ref) children], m)
      | S ti =>
          st <- read m ref ;;
          match s_rb st with
          | None => Panic
          | Some rb =>
              let start := if Nat.eqb ti 0 then Some (s_start st) else None in
              t <- idx (rb_terms rb) ti ;;
              match t_type t with
              | TTerminal =>
                  let leaf := PNode (Fresh (mkSt t None (s_start st + ti) (s_start st + ti + 1) 0)) [] in
                  build_helper_m fuel' (leaf :: children) ref ti (end_ - 1)%Z m
              | _ =>
                  if Z.ltb end_ 0 then Panic else
                  let e := Z.to_nat end_ in
                  col <- idx m e ;;
                  over_states_m
                    (fun r sub_st m1 =>
                       ' subs <- build_trees_m fuel' (e, r) m1 ;;
                       over_subtrees_m
                         (fun sub m2 => build_helper_m fuel' (sub :: children) ref ti (Z.of_nat (s_start sub_st)) m2)
                         (fst subs) (snd subs))
                    ref t start e (seq 0 (length (c_states col))) m
              end
          end
      end
  end.

(** A caller that asks for the trees of several final states, one after the other
    (api_easy.go:43-49) *)
Fixpoint get_all (fuel : nat) (refs : list (nat * nat)) (m : memory) : res (list (list pnode) * memory) :=
  match refs with
  | [] => Ret ([], m)
  | ref :: refs' =>
      ' a <- build_trees_m fuel ref m ;;
      ' b <- get_all fuel refs' (snd a) ;;
      Ret (fst a :: fst b, snd b)
  end.

(** earley_ast.go:60-68 statement by statement, for one List state (item [item],
    [dot] items) whose Rb field several goroutines fill. Each append is taken as
    one step. *)
Record filling := mkFilling { f_heap : list rulebody; f_rb : option nat }.
(** Where a goroutine is in earley_ast.go:60-68 *)
Inductive phase :=
| PNew            (* 61 state.Rb = &RuleBody{} *)
| PLoop (i : nat) (* 63-66 the loop, then 67 state.Rb.F = ... *)
| PDone.
(** earley_ast.go:60-68: one statement *)
Definition fill_step (item : string) (dot : nat) (p : phase) (f : filling) : res (phase * filling) :=
  match p with
  | PNew => Ret (PLoop 0, mkFilling (f_heap f ++ [mkRb [] None]) (Some (length (f_heap f))))
  | PLoop i =>
      match f_rb f with
      | None => Panic
      | Some a =>
          if Nat.ltb i dot
          then Ret (PLoop (S i), mkFilling (upd (f_heap f) a (fun b => mkRb (rb_terms b ++ [mkTerm item TNonterminal MNil]) (rb_f b))) (f_rb f))
          else Ret (PDone, mkFilling (upd (f_heap f) a (fun b => mkRb (rb_terms b)
                             (Some (FMR "fmr.list" (map (fun i => Arg "index" (VIdx (Z.of_nat (i + 1)))) (seq 0 dot)))))) (f_rb f))
      end
  | PDone => Ret (PDone, f)
  end.
(** two goroutines; [true] schedules the first (earley_ast.go:60-68) *)
Fixpoint fill_both (item : string) (dot : nat) (sched : list bool) (p q : phase) (f : filling) : res (phase * phase * filling) :=
  match sched with
  | [] => Ret (p, q, f)
  | true :: sched' => ' r <- fill_step item dot p f ;; fill_both item dot sched' (fst r) q (snd r)
  | false :: sched' => ' r <- fill_step item dot q f ;; fill_both item dot sched' p (fst r) (snd r)
  end.
(** what state.Rb points to (earley_ast.go:70) *)
Definition body_of (f : filling) : option rulebody :=
  match f_rb f with Some a => nth_error (f_heap f) a | None => None end.
