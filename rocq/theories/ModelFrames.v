(** Model of /repo/frame_api.go: filling the slots of frames. *)
From Verif Require Import Base ModelTypes ModelText ModelEarley ModelTrees ModelApi ModelQuote ModelSem
  ModelReader ModelGrammar.

(** types.go:49-53 [Slot]; the trees are paired with the parse they point to *)
Record slot := mkSlot { sl_start : nat; sl_end : nat; sl_trees : list (parse_t * node) }.
(** types.go:55-59 [Frame] *)
Record frame := mkFrame { fr_slots : list (N * list slot); fr_complete : bool }.
(** map[RbKey]*Frame (frame_api.go:96) *)
Definition frames := list (rbkey * frame).

(** reading maps with keys of type uint64 and RbKey (frame_api.go:20, 24, 109) *)
Fixpoint get_N {A} (m : list (N * A)) (k : N) : option A :=
  match m with
  | [] => None
  | (k', a) :: m' => if N.eqb k' k then Some a else get_N m' k
  end.
(** The same for keys of type RbKey (frame_api.go:74, 104) *)
Fixpoint get_key {A} (m : list (rbkey * A)) (k : rbkey) : option A :=
  match m with
  | [] => None
  | (k', a) :: m' => if rbkey_eqb k' k then Some a else get_key m' k
  end.
(** Assignment to such a map (frame_api.go:75, 105) *)
Fixpoint put_key {A} (m : list (rbkey * A)) (k : rbkey) (a : A) : list (rbkey * A) :=
  match m with
  | [] => [(k, a)]
  | (k', a') :: m' => if rbkey_eqb k' k then (k, a) :: m' else (k', a') :: put_key m' k a
  end.

(** The orders of the range loops over maps, one field per loop. Every loop is
    run at most once per value of the other arguments. *)
(** The numbers are lines of frame_api.go. *)
Record frame_orders := mkFO {
  fo_matches : list (string * list (nat * nat)) -> list (string * list (nat * nat)); (* 98 *)
  fo_frames : string -> list rbkey -> list rbkey;       (* 103, per word *)
  fo_rules : string -> list rbkey -> list rbkey;        (* 117, per word *)
  fo_queue : list string -> list string;                (* 122 *)
  fo_uses : string -> list rbkey -> list rbkey;         (* 136, per rule taken from the queue *)
  fo_starts : list string -> list string;               (* 144 *)
  fo_tag : nat -> nat -> list rbkey -> list rbkey;      (* 73, per parse and final state *)
  fo_result : frames -> frames                          (* 19 *)
}.

Section Frames.
  Variable g : grammar.
  (** types.go:98-104 [Term.Key], hashstructure: external *)
  Variable key : term -> N.
  (** dict.Cedar.MultiMatch on the words of g.trie: the matched words with the
      byte positions of their hits; external *)
  Variable multi_match : list string -> string -> res (list (string * list (nat * nat))).
  Variable fo : frame_orders.

  (** g.Frames[k.RuleName].Body[k.BodyID]: both lookups may give nil, whose
      fields cannot be read (frame_api.go:20-21, 80, 113) *)
  Definition frame_body (v : rbkey) : res rulebody :=
    match lookup (g_frames g) (fst v) with
    | None => Panic
    | Some r => match get_N (r_body r) (snd v) with None => Panic | Some b => Ret b end
    end.

  (** Slots[k] = append(Slots[k], s) (frame_api.go:78, 109) *)
  Definition append_slot (k : N) (m : list (N * list slot)) (s : slot) : list (N * list slot) :=
    put_N m k ((match get_N m k with Some l => l | None => [] end) ++ [s]).

  (** frame_api.go:104-115 and 74-82: one frame receives slots under one key *)
  Definition fill (k : N) (new : list slot) (fs : frames) (v : rbkey) : res frames :=
    let f := match get_key fs v with Some f => f | None => mkFrame [] false end in
    let slots := fold_left (append_slot k) new (fr_slots f) in
    b <- frame_body v ;;
    Ret (put_key fs v (mkFrame slots (fr_complete f || Nat.leb (length (rb_terms b)) (length slots)))).
  (** frame_api.go:73-83 and 103-116: the loop over the frames *)
  Fixpoint fill_all (k : N) (new : list slot) (vs : list rbkey) (fs : frames) : res frames :=
    match vs with
    | [] => Ret fs
    | v :: vs' => fs' <- fill k new fs v ;; fill_all k new vs' fs'
    end.

  (** frame_api.go:98-120 *)
  Fixpoint words_loop (ms : list (string * list (nat * nat))) (fs : frames) (rules : list string)
    : res (frames * list string) :=
    match ms with
    | [] => Ret (fs, rules)
    | (w, hits) :: ms' =>
        match lookup (g_index g) w with
        | None => Err
        | Some i =>
            fs' <- fill_all (key (mkTerm w TTerminal MNil))
                            (map (fun h => mkSlot (fst h) (snd h) []) hits)
                            (fo_frames fo w (ix_frames i)) fs ;;
            words_loop ms' fs'
              (fold_left (fun rs v => set_add String.eqb rs (fst v)) (fo_rules fo w (ix_rules i)) rules)
        end
    end.

  (** frame_api.go:136-141 *)
  Definition enqueue (s : list string * list string) (v : rbkey) : list string * list string :=
    let '(queue, rules) := s in
    if existsb (String.eqb (fst v)) rules then s else (queue ++ [fst v], rules ++ [fst v]).
  (** frame_api.go:125-142; [fuel] is the step budget of the loop *)
  Fixpoint closure (fuel : nat) (queue rules : list string) : res (list string) :=
    match queue with
    | [] => Ret rules
    | r :: queue' =>
        match fuel with
        | O => Fuel
        | S fuel' =>
            match lookup (g_rule_index g) r with
            | None => closure fuel' queue' rules
            | Some i =>
                let '(queue2, rules2) := fold_left enqueue (fo_uses fo r (ix_rules i)) (queue', rules) in
                closure fuel' queue2 rules2
            end
        end
    end.

  (** frame_api.go:89-148 [getCandidates] *)
  Definition get_candidates (fuel : nat) (text : string) : res (frames * list string) :=
    matches <- multi_match (g_trie g) text ;;
    '(fs, rules) <- words_loop (fo_matches fo matches) [] [] ;;
    rules' <- closure fuel (fo_queue fo rules) rules ;;
    Ret (fs, fo_starts fo rules').

  (** frame_api.go:58-84: the final states of parse number [i], from number [j] on *)
  Fixpoint finals_loop (fuel i j : nat) (p : parse_t) (refs : list (nat * nat)) (fs : frames)
    : res frames :=
    match refs with
    | [] => Ret fs
    | ref :: refs' =>
        s <- p_state p ref ;;
        tg <- tag s ;;
        '(a, b) <- boundary p s ;;
        ts <- get_trees (p_columns p) fuel ref ;;
        if String.eqb tg "" then Err
        else
          match lookup (g_rule_index g) tg with
          | None => finals_loop fuel i (S j) p refs' fs
          | Some ix =>
              fs' <- fill_all (key (mkTerm tg TNonterminal MNil))
                              [mkSlot a b (map (fun t => (p, t)) ts)]
                              (fo_tag fo i j (ix_frames ix)) fs ;;
              finals_loop fuel i (S j) p refs' fs'
          end
    end.
  (** frame_api.go:57-85: the loop over the parses *)
  Fixpoint parses_loop (fuel i : nat) (ps : list parse_t) (fs : frames) : res frames :=
    match ps with
    | [] => Ret fs
    | p :: ps' =>
        fs' <- finals_loop fuel i 0 p (p_finals p) fs ;; parses_loop fuel (S i) ps' fs'
    end.

  Variable tmatch : term -> option token -> bool.
  Variable ords : nat -> order.
  Variable annotate : string -> string -> res (list token).
  Variable local_grammar : list token -> res (option grammar_rules).

  (** frame_api.go:47-87 [MatchFramesWithContext]; MatchFrames (41-43) passes "" *)
  Definition MatchFrames (fuel : nat) (ctx text : string) : res frames :=
    '(fs, starts) <- get_candidates fuel text ;;
    ps <- EarleyParseAll tmatch ords (all_rules g) annotate local_grammar fuel ctx text starts ;;
    parses_loop fuel 0 ps fs.

  Variable join_words : list string -> string.
  Variable float_string : bigf -> string.
  Variable json : dval -> string.
  Variable is_print_hi : rune -> bool.
  Variable call : string -> list dval -> res dval.

  (** frame_api.go:22-30: the child for one term: the first tree of its first slot *)
  Definition child (slots : list (N * list slot)) (t : term) : option (parse_t * node) :=
    match get_N slots (key t) with
    | None | Some [] => None
    | Some (s :: _) => match sl_trees s with [] => None | pn :: _ => Some pn end
    end.
  (** frame_api.go:18-37: the text of one frame. The function belongs to an empty
      Node, on which an @ argument fails with a nil dereference (OriginalText). *)
  Definition frame_string (vf : rbkey * frame) : res string :=
    b <- frame_body (fst vf) ;;
    match rb_f b with
    | None => Ret ""
    | Some f =>
        fmr_str float_string json is_print_hi ""
          (map (fun t => option_map (fun pn =>
                  semantic (fst pn) join_words float_string json is_print_hi call (snd pn))
                  (child (fr_slots (snd vf)) t)) (rb_terms b))
          Panic f
    end.
  (** frame_api.go:13-39 [FrameFMRWithContext]; FrameFMR (8-10) passes "" *)
  Definition FrameFMR (fuel : nat) (ctx text : string) : res (list string) :=
    fs <- MatchFrames fuel ctx text ;;
    sequence (map frame_string (fo_result fo fs)).
End Frames.
