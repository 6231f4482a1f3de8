(** Printing states, charts and trees. *)
From Verif Require Import Base ModelTypes ModelText ModelQuote ModelEarley ModelTrees ModelApi ModelString.

(** earley.go:14 [DOT], U+2022 in UTF-8 *)
Definition DOT : string := "•".

(** earley_stringer.go:61, 66, 68, 76, 91 *)
Definition newline : string := String (of_byte 10) "".

(** s written n times (earley_stringer.go:38-40, 88-90) *)
Fixpoint rep (n : nat) (s : string) : string :=
  match n with O => "" | S n' => s ++ rep n' s end%string.

Section Printer.
  (** strconv.IsPrint above U+00FF; big.Float.String *)
  Variable is_print_hi : rune -> bool.
  Variable float_string : bigf -> string.

  (** earley_stringer.go:20-29: one term of a rule *)
  Definition term_string (t : term) : string :=
    (match t_type t with
     | TNonterminal => "<" ++ t_value t ++ "> "
     | TTerminal => quote is_print_hi (t_value t) ++ " "
     | TAny => "(any) "
     | TList => "(list<" ++ t_value t ++ ">) "
     | TEOF => ""
     end)%string.

  (** earley_stringer.go:16-30: the loop over the terms from index [i] on *)
  Fixpoint terms_string (dot i : nat) (ts : list term) : string :=
    (match ts with
     | [] => ""
     | t :: ts' => (if Nat.eqb i dot then DOT ++ " " else "") ++ term_string t ++ terms_string dot (S i) ts'
     end)%string.

  (** " [%d-%d]" (earley_stringer.go:34, 42, 54, 56) *)
  Definition span_string (s : tstate) : string :=
    (" [" ++ dec_N (N.of_nat (s_start s)) ++ "-" ++ dec_N (N.of_nat (s_end s)) ++ "]")%string.

  (** earley_stringer.go:45-51: "$1,...,$n"; [i] is the loop variable *)
  Fixpoint items_string (n i dot : nat) : string :=
    (match n with
     | O => ""
     | S n' => "$" ++ dec_N (N.of_nat (i + 1)) ++ (if Nat.eqb (i + 1) dot then "" else ",") ++ items_string n' (S i) dot
     end)%string.

  (** earley_stringer.go:11-57 [TableState.String] *)
  Definition state_string (s : tstate) : string :=
    (let x := t_value (s_term s) in
     let plain := quote is_print_hi x ++ span_string s in
     match t_type (s_term s) with
     | TNonterminal =>
         match s_rb s with
         | Some b =>
             "<" ++ x ++ "> -> " ++ terms_string (s_dot s) 0 (rb_terms b)
             ++ (if Nat.eqb (s_dot s) (length (rb_terms b)) then DOT else "")
             ++ span_string s ++ " {" ++ fmr_opt_string is_print_hi float_string (rb_f b) ++ "}"
         | None => plain
         end
     | TAny => "(any) -> " ++ rep (s_end s - s_start s) "# " ++ DOT ++ " * " ++ span_string s
     | TList =>
         "(list<" ++ x ++ ">) -> " ++ rep (s_dot s) ("<" ++ x ++ "> ") ++ DOT ++ " * " ++ span_string s
         ++ " {fmr.list(" ++ items_string (s_dot s) 0 (s_dot s) ++ ")}"
     | _ => plain
     end)%string.

  (** earley_stringer.go:59-71 [TableColumn.String]; a column after the first
      without a token would be a nil dereference *)
  Definition column_string (c : column) : res string :=
    head <- (match c_index c with
             | O => Ret ("[0] ''" ++ newline)%string
             | S _ => match c_token c with
                      | None => Panic
                      | Some t => Ret ("[" ++ dec_N (N.of_nat (c_index c)) ++ "] '" ++ tok_string t ++ "' position:["
                                       ++ dec_N (N.of_nat (tok_start t)) ++ "-" ++ dec_N (N.of_nat (tok_end t)) ++ "]" ++ newline)%string
                      end
             end) ;;
    Ret (head ++ "=======================================" ++ newline
         ++ String.concat "" (map (fun s => state_string s ++ newline) (c_states c)))%string.

  (** earley_stringer.go:73-79 [Parse.String] *)
  Fixpoint columns_string (cs : list column) : res string :=
    match cs with
    | [] => Ret ""
    | c :: cs' => a <- column_string c ;; b <- columns_string cs' ;; Ret (a ++ newline ++ b)%string
    end.
  (** earley_stringer.go:73-79 [Parse.String] *)
  Definition parse_string (p : parse_t) : res string := columns_string (p_columns p).

  (** earley_stringer.go:86-95 [Node.printLevel] *)
  Fixpoint print_level (level : nat) (n : node) : string :=
    match n with
    | Node v kids => (rep level "  " ++ state_string v ++ newline ++ String.concat "" (map (print_level (S level)) kids))%string
    end.
  (** earley_stringer.go:82-84 [Node.Print]: what is written *)
  Definition print_node (n : node) : string := print_level 0 n.

  (** earley_stringer.go:97-102 [Node.String]: %+v of a slice of Stringers is
      their texts separated by blanks in brackets *)
  Fixpoint node_string (n : node) : string :=
    match n with
    | Node v [] => state_string v
    | Node v kids => (state_string v ++ " [" ++ join " " (map node_string kids) ++ "]")%string
    end.

  (** earley_nodeprint.go:10-17 [Node.TreePrint]: what is written.
      [treeprint root kids] is the text github.com/xlab/treeprint makes of a
      root value and the values of its children *)
  Variable treeprint : string -> list string -> string.
  (** earley_nodeprint.go:10-17 [Node.TreePrint] *)
  Definition tree_print (n : node) : string :=
    (treeprint (state_string (n_value n)) (map (fun c => state_string (n_value c)) (n_children n)) ++ newline)%string.
End Printer.
