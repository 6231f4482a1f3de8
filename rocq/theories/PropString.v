(** C35: printed functions can be read back. *)
From Coq Require Import Ascii.
From Verif Require Import Base ModelTypes ModelText ModelEarley ModelReader ModelGrammar ModelQuote ModelString
  SpecNotation SpecConstruct SpecString SpecChars ProofChars ProofString ProofStringRead ProofStringContext ProofStringExact
  ExamplesGrammar ExamplesString.

(** Print a function of any nesting, put the text into a grammar, read the grammar:
    the rule has exactly the same function. *)
Theorem C35_read_back : forall e, env_ok e -> forall is_print_hi float_string fuel depth x y f name gt,
  Forall good x -> name_text (is_letter (e_letter e)) (is_digit (e_digit e)) x ->
  Forall good y -> name_text (is_letter (e_letter e)) (is_digit (e_digit e)) y ->
  plain_fmr (is_letter (e_letter e)) (is_digit (e_digit e)) (e_scan e) (is_print is_print_hi) float_string f ->
  (forall v, exists tk, e_tokenize e v = Ret tk) ->
  let d := rule_text (encode x) (encode y) (fmr_string is_print_hi float_string f) in
  let b := mkRb [mkTerm (encode y) TNonterminal MNil] (Some f) in
  String.length d < fuel ->
  exists g w', from_string e fuel (S depth) d name gt = Ret (Some g, w') /\
    lookup (g_rules g) (encode x) = Some (mkRule (encode x) [(e_hash e b, b)]).
Proof. exact read_printed. Qed.
Print Assumptions C35_read_back.

(** Exactly these strings survive: printable characters, newlines and tabs, not starting
    with an opening parenthesis or with white space other than newline and tab. *)
Theorem C35_strings_exact : forall letter_hi digit_hi scan_float is_print_hi float_string fn s,
  Forall good fn -> func_text (is_letter letter_hi) (is_digit digit_hi) fn ->
  let f := FMR (encode fn) [Arg "string" (VStr s)] in
  (exists w, Forall good w /\ w_fmr (is_letter letter_hi) (is_digit digit_hi) scan_float f w /\
             encode w = fmr_string is_print_hi float_string f)
  <-> exists cs, s = encode cs /\ plain_text (is_print is_print_hi) cs.
Proof. exact string_exact. Qed.
Print Assumptions C35_strings_exact.

(** A context argument anywhere: the printed text is no function of the notation at all. *)
Theorem C35_context_lost : forall is_print_hi float_string letter_hi digit_hi scan_float f,
  has_context f -> tidy float_string f ->
  ~ exists g w, w_fmr (is_letter letter_hi) (is_digit digit_hi) scan_float g w /\
                encode w = fmr_string is_print_hi float_string f.
Proof. exact context_lost. Qed.
Print Assumptions C35_context_lost.

(** Floats whose printed form has no decimal point come back as integers. *)
Theorem C35_float_becomes_int : forall letter_hi digit_hi scan_float is_print_hi float_string fn x d ds,
  Forall good fn -> func_text (is_letter letter_hi) (is_digit digit_hi) fn ->
  float_string x = encode (d :: ds) -> decimals (d :: ds) -> d <> 48%Z \/ ds = [] ->
  exists w, Forall good w /\ encode w = fmr_string is_print_hi float_string (FMR (encode fn) [Arg "float" (VFloat x)]) /\
    w_fmr (is_letter letter_hi) (is_digit digit_hi) scan_float (FMR (encode fn) [Arg "int" (VInt (decimal_value (d :: ds)))]) w.
Proof. exact float_as_int. Qed.
Print Assumptions C35_float_becomes_int.

Example C35_example :
  env_ok (xenv [] keep) /\
  plain_fmr (is_letter (fun _ => false)) (is_digit (fun _ => false)) (fun _ => Err) (is_print (fun _ => false))
    (fun _ => "3"%string) big_fmr /\
  reread big_fmr = Some (Some big_fmr).
Proof. split; [apply xenv_ok, keep_ok|]. split; [exact big_plain|vm_compute; reflexivity]. Qed.
Example C35_lost_example :
  has_context with_context /\ tidy (fun _ => "3"%string) with_context /\
  xprint with_context = "f($1,invalid_fmr)"%string /\ reread with_context = None /\
  reread (FMR "f" [Arg "string" (VStr "(x")]) = None /\
  reread (FMR "f" [Arg "string" (VStr " x")]) = Some (Some (FMR "f" [Arg "string" (VStr "x")])) /\
  reread (FMR "f" []) = None /\
  fmr_opt_string (fun _ => false) (fun _ => "3"%string) None = xprint (FMR "nf.I" [Arg "index" (VIdx 0)]).
Proof.
  split; [|split].
  - eapply hc_inside; [right; left; reflexivity|]. eapply hc_here. left. reflexivity.
  - constructor.
    + intros K. cbn in K. destruct K as [K|[]]. discriminate K.
    + intros x [K|[K|[]]]; discriminate K.
    + intros f [K|[K|[]]]; [discriminate K|]. injection K as <-. constructor.
      * intros K. cbn in K. destruct K as [K|[]]. discriminate K.
      * intros x [K|[]]; discriminate K.
      * intros f [K|[]]; discriminate K.
  - vm_compute. repeat split; reflexivity.
Qed.

(** The printable characters up to U+00FF (SpecChars.v lists them). *)
Theorem C35_printable : forall is_print_hi r, (0 <= r <= 255)%Z -> is_print is_print_hi r = true <-> one_of latin_printable r.
Proof. exact printable_listed. Qed.
Print Assumptions C35_printable.

Example C35_printable_example :
  one_of latin_printable 32%Z /\ is_print (fun _ => false) 172%Z = true /\ is_print (fun _ => true) 173%Z = false /\ is_print (fun _ => true) 160%Z = false.
Proof. split; [apply (printable_listed (fun _ => false)); [lia|reflexivity]|repeat split; reflexivity]. Qed.
