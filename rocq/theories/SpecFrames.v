(** What matching frames should do. *)
From Coq Require Import Permutation.
From Verif Require Import Base ModelTypes ModelText ModelEarley ModelTrees ModelApi ModelSem
  ModelReader ModelGrammar ModelFrames SpecIndex.

Definition frame_orders_ok (fo : frame_orders) : Prop :=
  (forall l, Permutation l (fo_matches fo l)) /\ (forall w l, Permutation l (fo_frames fo w l)) /\
  (forall w l, Permutation l (fo_rules fo w l)) /\ (forall l, Permutation l (fo_queue fo l)) /\
  (forall r l, Permutation l (fo_uses fo r l)) /\ (forall l, Permutation l (fo_starts fo l)) /\
  (forall i j l, Permutation l (fo_tag fo i j l)) /\ (forall l, Permutation l (fo_result fo l)).

(** The rules that mention one of the words, or mention such a rule, and so on. *)
Inductive wanted (ms : list grammar_rules) (words : list string) : string -> Prop :=
| wanted_word k v : In k words -> mentioned ms TTerminal k v -> wanted ms words (fst v)
| wanted_use x v : wanted ms words x -> mentioned ms TNonterminal x v -> wanted ms words (fst v).

(** The alternative with key [v] of the frames of [g] is [b], and no included
    grammar has another one under the same key. *)
Definition frame_is (g : grammar) (v : rbkey) (b : rulebody) : Prop :=
  frame_body g v = Ret b /\
  (forall r, lookup (g_frames g) (fst v) = Some r -> r_name r = fst v) /\
  forall m x r b', In m (g_frames g :: map g_frames (g_includes g)) -> In (x, r) m -> r_name r = fst v ->
    In (snd v, b') (r_body r) -> b' = b.
(** A word or a rule without flags and without surrounding white space; any other term. *)
Definition plain_term (t : term) : Prop :=
  t_type t = TTerminal \/ t_type t = TNonterminal -> t_meta t = MNil /\ trim_space (t_value t) = t_value t.

(** The slots of frame [f] for term [t]. *)
Definition slots_for (key : term -> N) (f : frame) (t : term) : list slot :=
  match get_N (fr_slots f) (key t) with Some l => l | None => [] end.

(** The hits of a word. *)
Definition word_slots (matches : list (string * list (nat * nat))) (w : string) : list slot :=
  match lookup matches w with
  | Some hits => map (fun h => mkSlot (fst h) (snd h) []) hits
  | None => []
  end.
(** The final states of rule [x], with their positions and trees. *)
Definition final_slot (fuel : nat) (p : parse_t) (ref : nat * nat) : res (string * slot) :=
  s <- p_state p ref ;; tg <- tag s ;; '(a, b) <- boundary p s ;;
  ts <- get_trees (p_columns p) fuel ref ;; Ret (tg, mkSlot a b (map (fun t => (p, t)) ts)).
Definition rule_slots (fuel : nat) (ps : list parse_t) (x : string) : list slot :=
  flat_map (fun p => flat_map (fun ref =>
    match final_slot fuel p ref with
    | Ret (tg, s) => if String.eqb tg x then [s] else []
    | _ => []
    end) (p_finals p)) ps.
(** What the text has for a term. *)
Definition found (matches : list (string * list (nat * nat))) (fuel : nat) (ps : list parse_t) (t : term) : list slot :=
  match t_type t with
  | TTerminal => word_slots matches (t_value t)
  | TNonterminal => rule_slots fuel ps (t_value t)
  | _ => []
  end.
