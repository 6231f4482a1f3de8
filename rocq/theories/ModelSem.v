(** Model of /repo/node_methods.go, earley_fmr.go, earley_eval.go and the
    built-in functions of funcs.go: what a parse tree means. *)
From Verif Require Import Base ModelTypes ModelText ModelEarley ModelTrees ModelApi ModelQuote.

(** Values of type interface{} produced by evaluation: strings, nil, slices,
    maps with string keys, *Pos, and whatever else a called function returns.
    (earley_eval.go:9) *)
Inductive dval :=
| DStr (s : string)
| DNil
| DList (l : list dval)
| DMap (m : list (string * dval))
| DPos (s e : nat)
| DOther (tag : N).

Section Sem.
  (** the Parse the nodes belong to (earley_ast.go:13); never nil for nodes
      built by GetTrees *)
  Variable p : parse_t.
  (** goutil.Join (words to text), big.Float.String, json.Marshal,
      strconv.IsPrint above U+00FF: external *)
  Variable join_words : list string -> string.
  Variable float_string : bigf -> string.
  Variable json : dval -> string.
  Variable is_print_hi : rune -> bool.
  (** funcs.go:17-27 [Call], reflection through goutil.Call: external *)
  Variable call : string -> list dval -> res dval.

  (** node_methods.go:12-14 [Pos] *)
  Definition node_pos (n : node) : res (nat * nat) := boundary p (n_value n).

  (** node_methods.go:17-25 [Term] on a node with a value *)
  Definition node_term (n : node) : res term :=
    let v := n_value n in
    if String.eqb (t_value (s_term v)) GammaRule then
      match s_rb v with None => Panic | Some b => idx (rb_terms b) 0 end
    else Ret (s_term v).

  (** node_methods.go:28-36 [F] on a node with a value *)
  Definition node_f (n : node) : res (option fmr) :=
    let v := n_value n in
    match s_rb v with
    | None => Ret None
    | Some b =>
        match rb_terms b with
        | [] => Ret None
        | _ =>
            if String.eqb (t_value (s_term v)) GammaRule then
              c <- idx (n_children n) 0 ;;
              match s_rb (n_value c) with None => Panic | Some b' => Ret (rb_f b') end
            else Ret (rb_f b)
        end
    end.

  (** node_methods.go:39-42 [OriginalText] *)
  Definition original_text (n : node) : res string :=
    '(a, b) <- node_pos n ;; slice (p_text p) a b.

  (** node_methods.go:47-49: the texts of columns i, i+1, ..., i+k-1 *)
  Fixpoint column_texts (i k : nat) : res (list string) :=
    match k with
    | O => Ret []
    | S k' =>
        c <- idx (p_columns p) i ;;
        match c_token c with
        | None => Panic
        | Some t => rest <- column_texts (S i) k' ;; Ret (tok_text t :: rest)
        end
    end.

  (** node_methods.go:45-51 [NL] *)
  Definition node_nl (n : node) : res string :=
    ts <- column_texts (s_start (n_value n) + 1) (s_end (n_value n) - s_start (n_value n)) ;;
    Ret (join_words ts).

  (** earley_eval.go:90-97 (also earley_fmr.go:95-102): the value of an @
      argument; [evs] are the results of Eval on the nodes. A failing Eval is
      replaced by the text of the node. *)
  Fixpoint context_nodes (nodes : list node) (evs : list (res dval)) : res (list dval) :=
    match nodes, evs with
    | n :: nodes', e :: evs' =>
        v <- match e with
             | Err => t <- original_text n ;; Ret (DStr t)
             | r => r
             end ;;
        t <- node_term n ;;
        rest <- context_nodes nodes' evs' ;;
        Ret (DMap [(t_value t, v)] :: rest)
    | _, _ => Ret []
    end.
  (** earley_eval.go:90-106, earley_fmr.go:94-110 *)
  Definition context_value (n : node) (nodes : list node) (evs : list (res dval)) : res dval :=
    subs <- context_nodes nodes evs ;;
    txt <- original_text n ;;
    '(a, b) <- node_pos n ;;
    t <- node_term n ;;
    Ret (DMap ([("text", DStr txt); ("pos", DPos a b); ("nodes", DList subs)]
               ++ match t_type t with TTerminal => [] | _ => [("type", DStr (t_value t))] end)).

  (** ** Eval *)

  (** earley_eval.go:19-46 [fmrEval] and 48-110 [semEval]. [nl] is n.NL() of the
      node the function belongs to, [evs] are the results of Eval on its
      children, [ctx] the value of @; they are only looked at where the code
      calls the corresponding method. *)
  Fixpoint fmr_eval (nl : res string) (evs : list (res dval)) (ctx : res dval) (f : fmr) {struct f}
    : res dval :=
    match f with
    | FMR fn args =>
        if String.eqb fn "nf.I" then
          match args with
          | [a] => arg_eval nl evs ctx a
          | _ => Err
          end
        else
          vs <- (fix go (l : list arg) : res (list dval) :=
                   match l with
                   | [] => Ret []
                   | a :: l' => v <- arg_eval nl evs ctx a ;; vs <- go l' ;; Ret (v :: vs)
                   end) args ;;
          call fn vs
    end
  with arg_eval (nl : res string) (evs : list (res dval)) (ctx : res dval) (a : arg) {struct a}
    : res dval :=
    match a with
    | Arg ty v =>
        if String.eqb ty "string" then
          match v with VStr s => Ret (DStr s) | _ => Err end
        else if String.eqb ty "int" then
          match v with VInt z => Ret (DStr (dec_Z z)) | _ => Err end
        else if String.eqb ty "float" then
          match v with VFloat x => Ret (DStr (float_string x)) | _ => Err end
        else if String.eqb ty "func" then
          match v with VFunc f => fmr_eval nl evs ctx f | _ => Err end
        else if String.eqb ty "index" then
          match v with
          | VIdx i =>
              if Z.ltb i 0 || Z.ltb (Z.of_nat (length evs)) i then Err
              else if Z.eqb i 0 then (t <- nl ;; Ret (DStr t))
              else (e <- idx evs (Z.to_nat (i - 1)) ;; e)
          | _ => Err
          end
        else if String.eqb ty "context" then ctx
        else Err
    end.

  (** earley_eval.go:9-17 [Eval] *)
  Fixpoint eval (n : node) : res dval :=
    match n with
    | Node v ch =>
        let plain := (t <- original_text n ;; Ret (DStr t)) in
        match s_rb v with
        | None => plain
        | Some b =>
            match rb_f b with
            | None => plain
            | Some f =>
                let evs := map eval ch in
                fmr_eval (node_nl n) evs (context_value n ch evs) f
            end
        end
    end.

  (** ** Semantic *)

  (** earley_fmr.go:24-48 [fmrStr] and 50-116 [semStr]. [sems] are the results of
      Semantic on the children; [None] is a nil child (frame_api.go:30). *)
  Fixpoint fmr_str (nl : string) (sems : list (option (res string))) (ctx : res dval) (f : fmr) {struct f}
    : res string :=
    match f with
    | FMR fn args =>
        if String.eqb fn "nf.I" then
          match args with
          | [a] => sem_str nl sems ctx a
          | _ => Err
          end
        else
          ss <- (fix go (l : list arg) : res (list string) :=
                   match l with
                   | [] => Ret []
                   | a :: l' => s <- sem_str nl sems ctx a ;; ss <- go l' ;; Ret (s :: ss)
                   end) args ;;
          Ret (fn ++ "(" ++ join ", " ss ++ ")")%string
    end
  with sem_str (nl : string) (sems : list (option (res string))) (ctx : res dval) (a : arg) {struct a}
    : res string :=
    match a with
    | Arg ty v =>
        if String.eqb ty "string" then
          match v with VStr s => Ret (quote is_print_hi s) | _ => Err end
        else if String.eqb ty "int" then
          match v with VInt z => Ret (dec_Z z) | _ => Err end
        else if String.eqb ty "float" then
          match v with VFloat x => Ret (float_string x) | _ => Err end
        else if String.eqb ty "func" then
          match v with VFunc f => fmr_str nl sems ctx f | _ => Err end
        else if String.eqb ty "index" then
          match v with
          | VIdx i =>
              if Z.ltb i 0 || Z.ltb (Z.of_nat (length sems)) i then Err
              else if Z.eqb i 0 then Ret nl
              else (c <- idx sems (Z.to_nat (i - 1)) ;;
                    match c with None => Ret "null" | Some r => r end)
          | _ => Err
          end
        else if String.eqb ty "context" then (c <- ctx ;; Ret (json c))
        else Err
    end.

  (** earley_fmr.go:12-22 [Semantic] *)
  Fixpoint semantic (n : node) : res string :=
    match n with
    | Node v ch =>
        t <- node_nl n ;;
        let nl := quote is_print_hi t in
        match s_rb v with
        | None => Ret nl
        | Some b =>
            match rb_f b with
            | None => Ret nl
            | Some f => fmr_str nl (map (fun c => Some (semantic c)) ch)
                                (context_value n ch (map eval ch)) f
            end
        end
    end.

  (** ** Tree and Bracketed *)

  (** node_methods.go:71-82 and 106-117: all children are terminals or rules
      generated for terminal texts *)
  Definition all_terminal (ch : list node) : bool :=
    forallb (fun c =>
      let t := s_term (n_value c) in
      ttype_eqb (t_type t) TTerminal || has_prefix (t_value t) "g_t_" || has_prefix (t_value t) "l_t_") ch.

  (** node_methods.go:87-90, 123-126: the loops over the children *)
  Fixpoint sequence {A} (l : list (res A)) : res (list A) :=
    match l with
    | [] => Ret []
    | r :: l' => a <- r ;; rest <- sequence l' ;; Ret (a :: rest)
    end.
  (** node_methods.go:54-93 [Tree] as a nested value *)
  Fixpoint tree_value (n : node) : res dval :=
    match n with
    | Node v ch =>
        if String.eqb (t_value (s_term v)) GammaRule then
          match ch with [] => Panic | c :: _ => tree_value c end
        else
          t <- node_term n ;;
          txt <- original_text n ;;
          '(a, b) <- node_pos n ;;
          let ret := [("type", DStr (t_value t)); ("text", DStr txt); ("pos", DPos a b)] in
          match s_rb v with
          | None => Ret (DMap ret)
          | Some rb =>
              match rb_f rb with
              | None => Ret (DMap ret)
              | Some _ =>
                  if all_terminal ch then Ret (DMap ret)
                  else subs <- sequence (map tree_value ch) ;;
                       Ret (DMap (ret ++ [("nodes", DList subs)]))
              end
          end
    end.

  (** node_methods.go:96-129 [Bracketed] *)
  Fixpoint bracketed (n : node) : res string :=
    match n with
    | Node v ch =>
        if String.eqb (t_value (s_term v)) GammaRule then
          match ch with [] => Panic | c :: _ => bracketed c end
        else
          t <- node_term n ;;
          if all_terminal ch then
            txt <- original_text n ;;
            Ret ("[" ++ t_value t ++ " " ++ quote is_print_hi txt ++ "]")%string
          else
            subs <- sequence (map bracketed ch) ;;
            Ret ("[" ++ t_value t ++ " " ++ join " " subs ++ "]")%string
    end.
End Sem.

(** ** The built-in functions *)

(** funcs.go:28-30 [fmrList] *)
Definition fmr_list (items : list dval) : dval := DList items.

(** funcs.go:32-45 [fmrEntity]; [show] is fmt.Sprintf("%v", _), external. The
    code returns a nil map where the model returns [DNil]. *)
Definition fmr_entity (show : dval -> string) (items : list dval) : dval :=
  match items with
  | [] => DNil
  | x :: rest =>
      let typ := show x in
      if String.eqb typ "" then DNil
      else match rest with
           | [] => DMap [(typ, DNil)]
           | _ => DMap [(typ, DList rest)]
           end
  end.
