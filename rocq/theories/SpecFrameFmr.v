(** The text FrameFMR gives for a frame. *)
From Verif Require Import Base ModelTypes ModelText ModelEarley ModelTrees ModelApi ModelQuote ModelSem
  ModelReader ModelGrammar ModelFrames SpecSem SpecFrames.

(** The first tree of the first slot. *)
Definition first_tree (l : list slot) : option (parse_t * node) :=
  match l with s :: _ => hd_error (sl_trees s) | [] => None end.

(** The tree for each term of frame [f] with body [b]. *)
Definition kids_of (key : term -> N) (f : frame) (b : rulebody) : list (option (parse_t * node)) :=
  map (fun t => first_tree (slots_for key f t)) (rb_terms b).

Section Text.
  Variable join_words : list string -> string.
  Variable float_string : bigf -> string.
  Variable json : dval -> string.
  Variable is_print_hi : rune -> bool.
  Variable call : string -> list dval -> res dval.
  (** the tree for each term of the frame *)
  Variable kids : list (option (parse_t * node)).

  (** [FText f s]: the text of function f is s. $0 is empty and $k without a tree is null. *)
  Inductive FText : fmr -> string -> Prop :=
  | ft_identity a s : AText a s -> FText (FMR "nf.I" [a]) s
  | ft_call fn args ss : fn <> "nf.I" -> ATexts args ss ->
      FText (FMR fn args) (fn ++ "(" ++ join ", " ss ++ ")")%string
  with ATexts : list arg -> list string -> Prop :=
  | at_nil : ATexts [] []
  | at_cons a args s ss : AText a s -> ATexts args ss -> ATexts (a :: args) (s :: ss)
  with AText : arg -> string -> Prop :=
  | at_string s : AText (Arg "string" (VStr s)) (quote is_print_hi s)
  | at_int z : AText (Arg "int" (VInt z)) (dec_Z z)
  | at_float x : AText (Arg "float" (VFloat x)) (float_string x)
  | at_func f s : FText f s -> AText (Arg "func" (VFunc f)) s
  | at_zero : AText (Arg "index" (VIdx 0)) ""
  | at_null k : nth_error kids k = Some None -> AText (Arg "index" (VIdx (Z.of_nat (S k)))) "null"
  | at_tree k p n s : nth_error kids k = Some (Some (p, n)) ->
      Sem p join_words float_string json is_print_hi call n s ->
      AText (Arg "index" (VIdx (Z.of_nat (S k)))) s.

  (** Frames without a function have the empty text. *)
  Definition frame_text (b : rulebody) (s : string) : Prop :=
    match rb_f b with None => s = ""%string | Some f => FText f s end.
End Text.

Scheme FText_m := Minimality for FText Sort Prop
  with ATexts_m := Minimality for ATexts Sort Prop
  with AText_m := Minimality for AText Sort Prop.
Combined Scheme FText_mutind from FText_m, ATexts_m, AText_m.

(** [f] has an @ argument, and all arguments before it have a text. *)
Section At.
  Variable texts : arg -> Prop.
  Inductive reaches_at : fmr -> Prop :=
  | ra_identity a : reaches_at_arg a -> reaches_at (FMR "nf.I" [a])
  | ra_call fn l1 a l2 : fn <> "nf.I" -> Forall texts l1 -> reaches_at_arg a -> reaches_at (FMR fn (l1 ++ a :: l2))
  with reaches_at_arg : arg -> Prop :=
  | ra_context v : reaches_at_arg (Arg "context" v)
  | ra_func f : reaches_at f -> reaches_at_arg (Arg "func" (VFunc f)).
End At.
Scheme reaches_m := Minimality for reaches_at Sort Prop
  with reaches_arg_m := Minimality for reaches_at_arg Sort Prop.
Combined Scheme reaches_mutind from reaches_m, reaches_arg_m.

(** The function of every frame fits its number of terms. *)
Definition frames_fit (g : grammar) : Prop :=
  forall v b f, frame_body g v = Ret b -> rb_f b = Some f -> fun_ok (length (rb_terms b)) f.
