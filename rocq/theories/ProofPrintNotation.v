(** Printed states and the grammar notation. *)
From Coq Require Import Ascii.
From Verif Require Import Base ModelTypes ModelText ModelQuote ModelEarley ModelTrees ModelApi ModelReader ModelString ModelPrint
     SpecGrammar SpecTree SpecApi SpecSem SpecNotation SpecString SpecPrint SpecPrintNotation SpecChars ProofUtf8 ProofReader ProofChars ProofRefine ProofString ProofPrint.
Local Open Scope list_scope.

Section Notation_.
  Variables letter_hi digit_hi : rune -> bool.
  Variable scan_float : string -> res bigf.
  Variable is_print_hi : rune -> bool.
  Variable float_string : bigf -> string.
  Variable regexp_ok : string -> bool.
  Variable md5 : string -> string.
  Notation letter := (is_letter letter_hi).
  Notation digit := (is_digit digit_hi).
  Notation printable := (is_print is_print_hi).
  Notation writes_ := (writes letter digit regexp_ok md5).

  Lemma term_written t : writable_term letter digit printable t -> exists s, writes_ t s /\ term_string is_print_hi t = (s ++ " ")%string.
  Proof using.
    destruct t as [v ty me]. unfold writable_term, term_string, writes. cbn [t_type t_value]. destruct ty; intros H.
    - contradiction.
    - destruct H as (x & Hg & Hn & ->). eexists. split.
      + exists ([60]%Z ++ x ++ [62]%Z). split; [|split; [reflexivity|constructor; exact Hn]].
        constructor; [apply ascii_good; lia|]. apply Forall_app. split; [exact Hg|]. constructor; [apply ascii_good; lia|constructor].
      + cbn [app encode]. rewrite encode_app. rewrite !string_app_assoc. reflexivity.
    - destruct H as (cs & Hp & ->). destruct (quote_literal letter_hi digit_hi is_print_hi cs Hp) as (w & W1 & W2 & W3).
      exists (quote is_print_hi (encode cs)). split; [|reflexivity]. exists w. split; [exact W2|]. split; [symmetry; exact W3|].
      apply wt_text. exact W1.
    - subst v. eexists. split.
      + exists ([40]%Z ++ [] ++ [97; 110; 121]%Z ++ [] ++ [] ++ [] ++ [41]%Z).
        split; [repeat (constructor; [apply ascii_good; lia|]); constructor|]. split; [reflexivity|]. constructor; constructor.
      + reflexivity.
    - destruct H as (x & Hg & Hn & ->). eexists. split.
      + exists ([40]%Z ++ [] ++ [108; 105; 115; 116]%Z ++ [] ++ [60]%Z ++ x ++ [62]%Z ++ [] ++ [] ++ [] ++ [41]%Z).
        split; [|split; [reflexivity|constructor; try exact Hn; constructor]].
        cbn [app]. repeat (constructor; [apply ascii_good; lia|]). apply Forall_app. split; [exact Hg|].
        repeat (constructor; [apply ascii_good; lia|]). constructor.
      + cbn [app encode]. rewrite encode_app. rewrite !string_app_assoc. reflexivity.
  Qed.

  Lemma terms_written ts : Forall (writable_term letter digit printable) ts -> exists ss, Forall2 writes_ ts ss /\
    map (term_string is_print_hi) ts = map (fun s => s ++ " ")%string ss.
  Proof using.
    induction 1 as [|t ts H _ (ss & IH1 & IH2)]; [exists []; split; [constructor|reflexivity]|].
    destruct (term_written t H) as (s & S1 & S2). exists (s :: ss). split; [constructor; assumption|]. cbn [map]. rewrite S2, IH2. reflexivity.
  Qed.

  Lemma scat_cons x l : String.concat "" (x :: l) = (x ++ String.concat "" l)%string.
  Proof using. destruct l; cbn [String.concat String.append]; [|reflexivity]. induction x as [|c x IH]; [reflexivity|]. cbn [String.append]. rewrite <- IH. reflexivity. Qed.
  Lemma sapp_nil_r s : (s ++ "")%string = s.
  Proof using. induction s as [|c s IH]; [reflexivity|]. cbn [String.append]. rewrite IH. reflexivity. Qed.
  Lemma terms_undotted dot : forall ts i, dot < i -> terms_string is_print_hi dot i ts = String.concat "" (map (term_string is_print_hi) ts).
  Proof using.
    induction ts as [|t ts IH]; intros i Hi; [reflexivity|]. cbn [terms_string map]. rewrite scat_cons.
    replace (Nat.eqb i dot) with false by (symmetry; apply Nat.eqb_neq; lia). rewrite IH by lia. reflexivity.
  Qed.
  Lemma blanks_turn l : (String.concat "" (map (fun s => " " ++ s) l) ++ " ")%string = (" " ++ String.concat "" (map (fun s => s ++ " ") l))%string.
  Proof using.
    induction l as [|s l IH]; [reflexivity|]. cbn [map]. rewrite !scat_cons. rewrite string_app_assoc, IH. rewrite !string_app_assoc. reflexivity.
  Qed.
  Lemma terms_dotted : forall ts ss i dot, map (term_string is_print_hi) ts = map (fun s => s ++ " ")%string ss ->
    i <= dot <= i + length ts ->
    (terms_string is_print_hi dot i ts ++ (if Nat.eqb dot (i + length ts) then DOT else ""))%string = dotted (dot - i) ss.
  Proof using.
    induction ts as [|t ts IH]; intros ss i dot Hm Hd; destruct ss as [|s ss]; try discriminate Hm.
    - cbn [length] in *. replace dot with (i + 0) by lia. rewrite Nat.eqb_refl. replace (i + 0 - i) with 0 by lia. reflexivity.
    - cbn [map] in Hm. injection Hm as Ht Hm. cbn [length] in Hd. cbn [terms_string length]. destruct (Nat.eqb_spec i dot) as [->|Hn].
      + rewrite terms_undotted by lia. replace (Nat.eqb dot (dot + S (length ts))) with false by (symmetry; apply Nat.eqb_neq; lia).
        rewrite Nat.sub_diag. unfold dotted. cbn [firstn skipn]. rewrite blanks_turn. cbn [map]. rewrite !scat_cons, sapp_nil_r, Ht, Hm. reflexivity.
      + replace (i + S (length ts)) with (S i + length ts) by lia. cbn [String.append]. rewrite string_app_assoc, (IH ss (S i) dot Hm) by lia.
        replace (dot - i) with (S (dot - S i)) by lia. unfold dotted. cbn [firstn skipn map]. rewrite scat_cons, Ht. rewrite !string_app_assoc. reflexivity.
  Qed.

  Lemma rule_shown s b : t_type (s_term s) = TNonterminal -> s_rb s = Some b -> s_dot s <= length (rb_terms b) ->
    Forall (writable_term letter digit printable) (rb_terms b) ->
    plain_fmr letter digit scan_float printable float_string (shown_function (rb_f b)) ->
    exists ss w, Forall2 writes_ (rb_terms b) ss /\ w_fmr letter digit scan_float (shown_function (rb_f b)) w /\ Forall good w /\
      state_string is_print_hi float_string s
      = ("<" ++ t_value (s_term s) ++ "> -> " ++ dotted (s_dot s) ss
         ++ " [" ++ dec_N (N.of_nat (s_start s)) ++ "-" ++ dec_N (N.of_nat (s_end s)) ++ "] {" ++ encode w ++ "}")%string.
  Proof using.
    intros Ht Hb Hd Hw Hf. destruct (terms_written _ Hw) as (ss & S1 & S2).
    destruct (print_read letter_hi digit_hi scan_float is_print_hi float_string _ Hf) as (w & W1 & W2 & W3).
    exists ss, w. split; [exact S1|]. split; [exact W1|]. split; [exact W2|].
    unfold state_string. rewrite Ht, Hb. rewrite <- (Nat.sub_0_r (s_dot s)) at 3.
    rewrite <- (terms_dotted (rb_terms b) ss 0 (s_dot s) S2 ltac:(lia)). cbn [Nat.add]. rewrite <- W3. unfold span_string.
    replace (fmr_opt_string is_print_hi float_string (rb_f b)) with (fmr_string is_print_hi float_string (shown_function (rb_f b)))
      by (destruct (rb_f b); reflexivity).
    rewrite !string_app_assoc. reflexivity.
  Qed.

  Lemma items_numbered : forall n i, items_string n i (i + n) = String.concat "," (map (fun k => "$" ++ dec_N (N.of_nat k))%string (seq (S i) n)).
  Proof using.
    induction n as [|n IH]; intros i; [reflexivity|]. cbn [items_string seq map]. replace (i + S n) with (S i + n) by lia. rewrite IH.
    replace (i + 1) with (S i) by lia. destruct n as [|n].
    - replace (Nat.eqb (S i) (S i + 0)) with true by (symmetry; apply Nat.eqb_eq; lia). cbn [seq map String.concat]. rewrite !sapp_nil_r. reflexivity.
    - replace (Nat.eqb (S i) (S i + S n)) with false by (symmetry; apply Nat.eqb_neq; lia). cbn [seq map String.concat].
      rewrite !string_app_assoc. reflexivity.
  Qed.
  Lemma list_shown s : t_type (s_term s) = TList ->
    state_string is_print_hi float_string s
    = ("(list<" ++ t_value (s_term s) ++ ">) -> " ++ String.concat "" (repeat ("<" ++ t_value (s_term s) ++ "> ") (s_dot s)) ++ "• * "
       ++ " [" ++ dec_N (N.of_nat (s_start s)) ++ "-" ++ dec_N (N.of_nat (s_end s)) ++ "] {fmr.list(" ++ numbered (s_dot s) ++ ")}")%string.
  Proof using.
    intros Ht. unfold state_string. rewrite Ht. rewrite (items_numbered (s_dot s) 0 : items_string (s_dot s) 0 (s_dot s) = _). unfold span_string.
    replace (rep (s_dot s) ("<" ++ t_value (s_term s) ++ "> ")) with (String.concat "" (repeat ("<" ++ t_value (s_term s) ++ "> ")%string (s_dot s))).
    2: { induction (s_dot s) as [|n IH]; [reflexivity|]. cbn [repeat rep]. rewrite scat_cons, IH. reflexivity. }
    rewrite !string_app_assoc. reflexivity.
  Qed.
End Notation_.
