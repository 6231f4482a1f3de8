(** A small concrete environment for reading grammars, used by examples and refutations. *)
From Coq Require Import Ascii Permutation.
From Verif Require Import Base ModelTypes ModelText ModelEarley ModelReader ModelGrammar
  SpecNotation SpecRefine SpecConstruct.

Definition dq : string := String (ascii_of_nat 34) "".
Definition nl : string := String (ascii_of_nat 10) "".
(** the characters of an ASCII text *)
Fixpoint runes (s : string) : list rune :=
  match s with EmptyString => [] | String c s' => Z.of_N (N_of_ascii c) :: runes s' end.
(** a text between quotes *)
Definition quoted (s : string) : string := (dq ++ s ++ dq)%string.

(** words separated by blanks; "-" is punctuation, blanks are tokens of their own *)
Fixpoint xsplit (s cur : string) : list string :=
  let flush l := if String.eqb cur "" then l else cur :: l in
  match s with
  | EmptyString => flush []
  | String c s' =>
      if Ascii.eqb c " " || Ascii.eqb c "-" then flush (String c "" :: xsplit s' "")
      else xsplit s' (cur ++ String c "")
  end.
Definition xword (i : nat) (s : string) : token :=
  mkTok s (if String.eqb s " " then KSpace else if String.eqb s "-" then KPunct else KWord) 0 0 i s s s.
Fixpoint xwords (i : nat) (l : list string) : list token :=
  match l with [] => [] | s :: l' => xword i s :: xwords (S i) l' end.
Definition xtokenize (s : string) : res (list token) := Ret (xwords 0 (xsplit s "")).

(** a hash that keeps small bodies apart *)
Fixpoint xhash_string (s : string) (n : N) : N :=
  match s with EmptyString => n | String c s' => xhash_string s' (n * 257 + N_of_ascii c + 1)%N end.
Definition xhash (b : rulebody) : N :=
  fold_left (fun n t => xhash_string (t_value t)
               (n * 7 + match t_type t with TNonterminal => 1 | TTerminal => 2 | TAny => 3 | _ => 4 end)%N)
            (rb_terms b) (match rb_f b with None => 1 | Some _ => 2 end)%N.

(** files by path *)
Definition xread (files : list (string * string)) (f : string) : res string :=
  match lookup files f with Some b => Ret b | None => Err end.

Definition xenv (files : list (string * string)) (ord : grammar_rules -> grammar_rules) : env :=
  mkEnv (fun _ => false) (fun _ => false) (fun _ => Err) (fun _ => true) (fun _ => "0123456789abcdef0123"%string)
        xhash (fun _ => true) xtokenize (fun s => s) (xread files) (fun _ => Ret "d"%string)
        (fun d p => (d ++ "/" ++ p)%string) ord.
Definition keep : grammar_rules -> grammar_rules := fun m => m.
Definition backwards : grammar_rules -> grammar_rules := fun m => rev m.

Lemma reordered_refl m : reordered m m.
Proof.
  exists m. split; [apply Permutation_refl|]. induction m; constructor; [|assumption].
  split; [reflexivity|]. split; [reflexivity|apply Permutation_refl].
Qed.
Lemma keep_ok : is_rule_order keep.
Proof. intros m. apply reordered_refl. Qed.
Lemma backwards_ok : is_rule_order backwards.
Proof.
  intros m. destruct (reordered_refl (rev m)) as (m1 & H1 & H2). exists m1. split; [|exact H2].
  eapply Permutation_trans; [apply Permutation_rev|exact H1].
Qed.
Lemma xenv_ok files ord : is_rule_order ord -> env_ok (xenv files ord).
Proof.
  intros H. split; [intros r _; split; discriminate|]. cbn [xenv e_scan e_md5 e_tokenize e_read e_abs e_ord].
  split; [intros t; split; discriminate|]. split; [intros t; cbn; lia|].
  split; [intros t; split; discriminate|].
  split; [intros f; unfold xread; destruct (lookup files f); split; discriminate|].
  split; [intros f; split; discriminate|exact H].
Qed.

(** what is left to look at in a result *)
Definition seen_terms (ts : list term) : list (string * ttype * meta) := map (fun t => (t_value t, t_type t, t_meta t)) ts.
Definition seen_rules (m : grammar_rules) : list (string * list (list (string * ttype * meta) * option fmr)) :=
  map (fun kr => (fst kr, map (fun hb => (seen_terms (rb_terms (snd hb)), rb_f (snd hb))) (r_body (snd kr)))) m.
Definition seen (r : res (option grammar * world))
  : option (list (string * list (list (string * ttype * meta) * option fmr))
            * list (string * list (list (string * ttype * meta) * option fmr)) * list string) :=
  match r with
  | Ret (Some g, _) => Some (seen_rules (g_rules g), seen_rules (g_frames g), map g_name (g_includes g))
  | _ => None
  end.

(** "/* c */ <s> = <g> (any{0,2}) {nf.f("x", $2, h(-5, @))} | "hello world" ; // d\n[fr] = <s> `a+` ; " *)
Definition text_big : string :=
  ("/* c */ <s> = <g> (any{0,2}) {nf.f(" ++ quoted "x" ++ ", $2, h(-5, @))} | " ++ quoted "hello world"
   ++ " ; // d" ++ nl ++ "[fr] = <s> `a+` ; ")%string.
(** cyclic includes: the root includes a and b, a includes b and itself, b includes a *)
Definition text_root : string :=
  ("#include " ++ quoted "a" ++ " #include " ++ quoted "b" ++ " <s> = <x> <y>;")%string.
Definition cyclic_files : list (string * string) :=
  [ ("./a", ("#include " ++ quoted "b" ++ "#include " ++ quoted "a" ++ "<x> = " ++ quoted "u" ++ ";")%string);
    ("./b", ("<y> = " ++ quoted "v" ++ ";")%string);
    ("d/a", ("#include " ++ quoted "b" ++ "<x> = " ++ quoted "u" ++ ";")%string);
    ("d/b", ("#include " ++ quoted "a" ++ "<y> = " ++ quoted "v" ++ ";")%string) ].

(** the same text with and without flags *)
Definition text_flags : string :=
  ("<a> = " ++ quoted "(?i)x" ++ "; <b> = " ++ quoted "x" ++ ";")%string.
Definition text_foobar : string := ("<a> = " ++ quoted "foo bar" ++ ";")%string.
Definition text_foobar_include : string := ("#include " ++ quoted "i" ++ text_foobar)%string.
Definition file_foobar : list (string * string) := [("./i", ("<c> = " ++ quoted "foo - bar" ++ ";")%string)].
Definition text_dangling : string := "<a> = <g_t_foo>;".
Definition text_dangling_more : string := (text_dangling ++ "<b> = " ++ quoted "foo" ++ ";")%string.

Definition rules_of (r : res (option grammar * world)) : list grammar_rules :=
  match r with Ret (Some g, _) => all_rules g | _ => [] end.
Definition tokens_of (r : res (option grammar * world)) : list (string * token) :=
  match r with Ret (_, w) => w_tokens w | _ => [] end.
(** a capital X whose normal form is x *)
Definition tok_X : token := mkTok "X" KWord 0 0 0 "X" "x" "X".
(** <a>="x y"<b>;<b>="z"; *)
Definition text_small : string := ("<a>=" ++ quoted "x y" ++ "<b>;<b>=" ++ quoted "z" ++ ";")%string.
Definition items_small : list item :=
  [ mkItem false "a" [mkRb [mkTerm "x y" TTerminal MNil; mkTerm "b" TNonterminal MNil] None];
    mkItem false "b" [mkRb [mkTerm "z" TTerminal MNil] None] ].
Definition text_taken : string := ("<g_t_x> = <y>; <a> = " ++ quoted "x" ++ "; <b> = " ++ quoted "x" ++ " | " ++ quoted " " ++ ";")%string.
