(** C22: a grammar text is read back. C23: reading terminates. C24: reading is
    complete. C25: numbers. C37: reading never panics. *)
From Coq Require Import Ascii.
From Verif Require Import Base ModelTypes ModelText ModelEarley ModelReader ModelGrammar
  SpecGrammar SpecNotation SpecRefine SpecConstruct SpecChars ProofChars ProofReaderHang ProofConstruct ProofNumber ExamplesGrammar ProofConstructRefute.

(** ** C22 *)
(** [e_items e its re w]: the runes [w] write the rules and frames [its], with any
    white space and comments. Reading them gives exactly their frames, their regular
    expressions, and their rules up to the refinement of the terminal texts (C26, C27). *)
Theorem C22_read_back : forall e, env_ok e -> forall fuel depth w name gt its re,
  Forall good w -> e_items e its re w -> String.length (encode w) < fuel ->
  (forall v, exists tk, e_tokenize e v = Ret tk) ->
  (forall it b t, In it its -> In b (it_bodies it) -> In t (rb_terms b) -> t_type t = TTerminal ->
     e_trie e (trim_space (t_value t)) = true) ->
  exists g w', from_string e fuel (S depth) (encode w) name gt = Ret (Some g, w') /\
    g_name g = name /\ g_includes g = [] /\ denotes (e_hash e) its true (g_frames g) /\
    denotes_regexps re (g_regexps g) /\
    exists rules T, denotes (e_hash e) its false rules /\ refined_by (e_tokenize e) (e_hash e) T rules (g_rules g) /\
      forall x, In x (map snd T) -> String.prefix "g_t" x = true.
Proof. exact env_read_back. Qed.
Print Assumptions C22_read_back.

Example C22_example :
  env_ok (xenv [] keep) /\ e_items (xenv [] keep) items_small [] (runes text_small) /\
  seen (from_string (xenv [] keep) 200 1 text_big "n" []) = Some
    ([("s", [([("g", TNonterminal, MNil); ("any", TAny, MMap (Some 0%Z) (Some 2%Z))],
              Some (FMR "nf.f" [Arg "string" (VStr "x"); Arg "index" (VIdx 2);
                 Arg "func" (VFunc (FMR "h" [Arg "int" (VInt (-5)); Arg "context" (VStr "@")]))]));
             ([("g_t_hello_world", TNonterminal, MNil)], None)]);
      ("g_t_hello_world", [([("hello", TTerminal, MNil); ("world", TTerminal, MNil)], None)])],
     [("fr", [([("s", TNonterminal, MNil); ("0123456789abcdef", TNonterminal, MNil)], None)])], [])%string.
Proof. split; [apply xenv_ok, keep_ok|]. split; [exact small_items|vm_compute; reflexivity]. Qed.

(** The letters and digits names are made of, up to U+00FF (SpecChars.v lists them). *)
Theorem C22_name_characters : forall letter_hi digit_hi r, (0 <= r <= 255)%Z ->
  (is_letter letter_hi r = true <-> one_of latin_letters r) /\ (is_digit digit_hi r = true <-> one_of "0123456789" r).
Proof. exact reader_classes. Qed.
Print Assumptions C22_name_characters.

Example C22_name_characters_example :
  one_of latin_letters 170%Z /\ is_letter (fun _ => false) 170%Z = true /\ is_letter (fun _ => true) 215%Z = false.
Proof. split; [apply (letters_listed (fun _ => false)); [lia|reflexivity]|split; reflexivity]. Qed.

(** ** C23 *)
Theorem C23_newline_terminates : forall e, env_ok e -> forall files w name gt,
  (forall f b, e_read e f = Ret b -> In f files /\ clean b) -> Forall good w ->
  exists r n, r <> Fuel /\ forall fuel depth, n <= fuel -> n <= depth ->
    from_string e fuel depth (encode (w ++ [10%Z])) name gt = r.
Proof. exact env_newline. Qed.
Print Assumptions C23_newline_terminates.

Theorem C23_clean_terminates : forall e, env_ok e -> forall files d name gt,
  (forall f b, e_read e f = Ret b -> In f files /\ clean b) -> clean d ->
  exists r n, r <> Fuel /\ forall fuel depth, n <= fuel -> n <= depth -> from_string e fuel depth d name gt = r.
Proof. exact env_stops. Qed.
Print Assumptions C23_clean_terminates.

(** Any rules and frames followed by a line comment that the end of the text cuts off. *)
Theorem C23_open_comment_hangs : forall letter_hi digit_hi scan_float regexp_ok md5 hash trie_accepts tokenize
    ascii_name read_file abs_dir join_path ord its l w b depth fuel name gt,
  unicode_tables letter_hi digit_hi ->
  Forall good (w ++ [47; 47]%Z ++ b) -> ~ In 10%Z b ->
  w_items (is_letter letter_hi) (is_digit digit_hi) scan_float regexp_ok md5 its l w ->
  GrammarFromString letter_hi digit_hi scan_float regexp_ok md5 hash trie_accepts tokenize ascii_name
    read_file abs_dir join_path ord fuel depth (encode (w ++ [47; 47]%Z ++ b)) name gt = Fuel.
Proof. exact open_comment_hangs. Qed.
Print Assumptions C23_open_comment_hangs.

Theorem C23_bad_byte_hangs : forall letter_hi digit_hi scan_float regexp_ok md5 hash trie_accepts tokenize
    ascii_name read_file abs_dir join_path ord depth fuel name gt,
  GrammarFromString letter_hi digit_hi scan_float regexp_ok md5 hash trie_accepts tokenize ascii_name
    read_file abs_dir join_path ord fuel depth bad_byte_text name gt = Fuel.
Proof. exact bad_byte_hangs. Qed.
Print Assumptions C23_bad_byte_hangs.

Example C23_example :
  clean "<a> = <b>;" /\ seen (from_string (xenv [] keep) 50 1 "<a> = <b>;" "n" []) <> None
  /\ from_string (xenv [] keep) 50 1 "<a> = <b>; // c" "n" [] = Fuel
  /\ e_items (xenv [] keep) [] [] [32]%Z.
Proof.
  split; [|split; [vm_compute; discriminate|split; [vm_compute; reflexivity|]]].
  - exists [60; 97; 62; 32; 61; 32; 60; 98; 62; 59]%Z. split; [|split; [reflexivity|]].
    + repeat constructor; discriminate.
    + intros (a & b & E & _). assert (H : In 47%Z (a ++ [47; 47]%Z ++ b)) by (apply in_or_app; right; left; reflexivity).
      rewrite <- E in H. cbn in H. repeat (destruct H as [H|H]; [discriminate|]). exact H.
  - apply wis_end. apply gap_space; [reflexivity|constructor].
Qed.

(** ** C24 *)
(** [e_text e d ps its re]: all of [d] is a grammar text, or its first bytes are undecodable. *)
Theorem C24_complete : forall e, env_ok e -> forall fuel depth d name gt og w',
  from_string e fuel depth d name gt = Ret (og, w') -> exists ps its re, e_text e d ps its re.
Proof. exact env_complete. Qed.
Print Assumptions C24_complete.

(** The second case is real: whatever follows, such a text is an empty grammar. *)
Theorem C24_undecodable_accepted : forall e, env_ok e -> forall fuel depth d name gt,
  undecodable d -> String.length d < fuel ->
  exists g w', from_string e fuel (S depth) d name gt = Ret (Some g, w') /\
    g_rules g = [] /\ g_frames g = [] /\ g_includes g = [].
Proof. exact env_undecodable. Qed.
Print Assumptions C24_undecodable_accepted.

Theorem C24_whole_text_refuted : exists d,
  undecodable d /\ seen (from_string (xenv [] keep) 50 1 d "n" []) = Some ([], [], []) /\
  (forall w, Forall good w -> d <> encode w).
Proof.
  refine (ex_intro _ (String (ascii_of_nat 255) "no grammar") (conj _ (conj _ _))).
  - exists 1. vm_compute. reflexivity.
  - vm_compute. reflexivity.
  - exact undecodable_not_encoded.
Qed.
Print Assumptions C24_whole_text_refuted.

Example C24_example :
  seen (from_string (xenv [] keep) 200 1 text_big "n" []) <> None
  /\ from_string (xenv [] keep) 200 1 (text_big ++ "?") "n" [] = Err.
Proof. split; vm_compute; congruence. Qed.

(** ** C25 *)
Theorem C25_index : forall e ds, decimals ds -> ds <> [] -> (decimal_value ds < 2 ^ 63)%Z ->
  forall z, e_arg e (Arg "index" (VIdx z)) ([36]%Z ++ ds) <-> z = decimal_value ds.
Proof. exact index_exact. Qed.
Print Assumptions C25_index.

Theorem C25_index_wraps : forall e ds, decimals ds -> ds <> [] ->
  (forall a b, ds = a ++ b -> a <> [] -> int64 (decimal_value a) <> (-1)%Z) ->
  forall z, e_arg e (Arg "index" (VIdx z)) ([36]%Z ++ ds) <-> z = int64 (decimal_value ds).
Proof. exact index_wraps. Qed.
Print Assumptions C25_index_wraps.

(** Range bounds are numbers of the same kind. *)
Theorem C25_number : forall ds, decimals ds -> ds <> [] -> (decimal_value ds < 2 ^ 63)%Z ->
  forall z, number ds z <-> z = decimal_value ds.
Proof. exact number_exact. Qed.
Print Assumptions C25_number.

(** Without the condition on -1 the wrap-around is wrong. *)
Theorem C25_wrap_refuted : exists ds ds', decimals ds /\ decimals ds' /\
  (forall z, ~ number ds z) /\ (exists z, number ds' z /\ z <> int64 (decimal_value ds')).
Proof.
  refine (ex_intro _ (runes "18446744073709551615") (ex_intro _ (runes "184467440737095516155") _)).
  exact wrap_witness.
Qed.
Print Assumptions C25_wrap_refuted.

Theorem C25_int_argument : forall e d ds z, decimals (d :: ds) -> d <> 48%Z \/ ds = [] ->
  (e_arg e (Arg "int" (VInt z)) (d :: ds) <-> z = decimal_value (d :: ds)).
Proof. exact int_argument. Qed.
Print Assumptions C25_int_argument.

Theorem C25_octal_argument : forall e ds z, Forall (fun d => 48 <= d <= 55)%Z ds -> ds <> [] ->
  (e_arg e (Arg "int" (VInt z)) (48%Z :: ds) <-> z = octal_value ds).
Proof. exact octal_argument. Qed.
Print Assumptions C25_octal_argument.

(** From the first 8 or 9 on the digits of such a number are ignored. *)
Theorem C25_octal_rest_ignored : forall e ds rest z, Forall (fun d => 48 <= d <= 55)%Z ds ->
  match rest with [] => True | c :: _ => (56 <= c <= 57)%Z end -> decimals rest -> ds ++ rest <> [] ->
  (e_arg e (Arg "int" (VInt z)) (48%Z :: ds ++ rest) <-> z = octal_value ds).
Proof. exact octal_rest. Qed.
Print Assumptions C25_octal_rest_ignored.

Example C25_example :
  decimals (runes "9223372036854775807") /\ decimal_value (runes "9223372036854775807") = (2 ^ 63 - 1)%Z
  /\ (forall e, e_arg e (Arg "index" (VIdx 12)) (runes "$12"))
  /\ (forall e, e_arg e (Arg "int" (VInt 8)) (runes "010")) /\ (forall e, e_arg e (Arg "int" (VInt 1)) (runes "018"))
  /\ (forall e, e_arg e (Arg "int" (VInt (-10))) (runes "-10")).
Proof. exact number_examples. Qed.

(** ** C37 *)
Theorem C37_string_never_panics : forall e, env_ok e -> forall fuel depth d name gt,
  from_string e fuel depth d name gt <> Panic.
Proof. exact env_no_panic. Qed.
Print Assumptions C37_string_never_panics.

Theorem C37_file_never_panics : forall e, env_ok e -> forall fuel depth f gt,
  from_file e fuel depth f gt <> Panic.
Proof. exact env_file_no_panic. Qed.
Print Assumptions C37_file_never_panics.

Example C37_example :
  env_ok (xenv [] keep) /\ from_string (xenv [] keep) 50 1 (String (ascii_of_nat 60) (String (ascii_of_nat 255) "")) "n" [] = Err
  /\ from_string (xenv [] keep) 50 1 "<a> = (list<x>{3,2});" "n" [] = Err
  /\ from_string (xenv [] keep) 50 1 "<a> = <b> {f(}" "n" [] = Err.
Proof. split; [apply xenv_ok, keep_ok|]. vm_compute. auto. Qed.
