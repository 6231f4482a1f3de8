(** math.en.grammar with number.en.grammar: the generated names are apart. *)
From Verif Require Import Base ModelTypes ModelText ModelEarley ModelReader ModelGrammar
  SpecTypes SpecGrammar SpecNotation SpecRefine SpecConstruct SpecSem SpecEnd ModelShipped SpecShipped SpecNames ProofConstruct ProofShipped ProofNames ExamplesGrammar ExamplesShipped.
Local Open Scope list_scope.

(** the texts of the files with these names *)
Definition texts_among (T : string -> list string) (names : list string) (l : list (string * string)) : list string :=
  flat_map (fun nt => if existsb (String.eqb (fst nt)) names then T (snd nt) else []) l.
Lemma in_texts_among T names l f text v : In f names -> In (f, text) l -> In v (T text) -> In v (texts_among T names l).
Proof.
  intros Hf Ht Hv. unfold texts_among. apply in_flat_map. exists (f, text). split; [exact Ht|]. cbn [fst snd].
  assert (E : existsb (String.eqb f) names = true) by (apply existsb_exists; exists f; split; [exact Hf|apply String.eqb_refl]). rewrite E. exact Hv.
Qed.
Definition math_en_texts : list string :=
  Eval vm_compute in texts_among (texts_in (senv dir_math) (BigF 1 (-1)) (BigF 1 (-1))) ["math.en.grammar"; "number.en.grammar"]%string dir_math.
Lemma math_en_texts_eq : texts_among (texts_in (senv dir_math) (BigF 1 (-1)) (BigF 1 (-1))) ["math.en.grammar"; "number.en.grammar"]%string dir_math = math_en_texts.
Proof. vm_compute. reflexivity. Qed.
Lemma math_en_apart : spelled_apart xtokenize (fun s => s) (shipped_text (senv dir_math) dir_math "math.en.grammar").
Proof.
  assert (K : forall v, shipped_text (senv dir_math) dir_math "math.en.grammar" v -> In v math_en_texts).
  { intros v H. rewrite <- math_en_texts_eq.
    destruct (shipped_texts (senv dir_math) (senv_ok _) (BigF 1 (-1)) (BigF 1 (-1)) eq_refl eq_refl eq_refl dir_math "math.en.grammar" v) as (f & text & Hf & Ht & Hv).
    - unfold shipped. do 4 right. left. reflexivity.
    - intros f [->|[<-|[]]]; discriminate.
    - exact H.
    - refine (in_texts_among _ _ _ f text v _ Ht Hv). destruct Hf as [->|[<-|[]]]; [left; reflexivity|right; left; reflexivity]. }
  assert (C : apart_check xtokenize (fun s => s) math_en_texts = true) by (vm_compute; reflexivity).
  intros v v' ks ks' j Hv Hv'. exact (apart_checked xtokenize (fun s => s) math_en_texts C v v' ks ks' j (K v Hv) (K v' Hv')).
Qed.
Definition ma_loaded : res (option grammar * world) := Eval vm_compute in from_file (senv dir_math) 4000 9 "d/math.en.grammar" [].
Definition ma_grammar : grammar :=
  Eval vm_compute in match ma_loaded with Ret (Some g, _) => g | _ => mkGrammar "" [] [] [] false [] [] [] [] end.
Definition ma_world : world := Eval vm_compute in match ma_loaded with Ret (_, w) => w | _ => mkW [] [] end.
Lemma ma_load : from_file (senv dir_math) 4000 9 (e_join (senv dir_math) "d" "math.en.grammar") [] = Ret (Some ma_grammar, ma_world).
Proof. vm_compute. reflexivity. Qed.

Lemma math_en_example : exists L, e_parts (senv dir_math) math_math_en ma_grammar L /\
  names_apart xtokenize (fun s => s) (terminal_text (map rd_before L)) (rule_name (map rd_before L)) /\
  uniform_flags (map rd_before L) /\ no_dangling "g_t" (map rd_before L) /\
  (exists m, In m (map rd_before L) /\ lookup m "number"%string <> None) /\
  2 <= length L.
Proof.
  assert (Hfile : In ("math.en.grammar"%string, math_math_en) dir_math) by (unfold dir_math; vm_compute; tauto).
  destruct (shipped_apart (senv dir_math) (senv_ok _) (senv_fractions _) eq_refl (senv_texts _) eq_refl dir_math "d"
     ltac:(unfold shipped; do 4 right; left; reflexivity) (senv_installed _ ltac:(unfold shipped; do 4 right; left; reflexivity)) _ _ Hfile ltac:(discriminate) math_en_apart
     _ _ _ _ _ ma_load) as (L & HL & HA & _ & _ & HU & HN).
  exists L. split; [exact HL|]. split; [exact HN|].
  destruct (HU ["number"%string]) as (_ & H1 & H2 & _); [discriminate|intros S [<-|[]]; split; [discriminate|reflexivity]|].
  split; [exact H1|]. split; [exact H2|]. apply (f_equal (@length _)) in HA as HA'. rewrite map_length in HA'. rewrite HA'. split; [|vm_compute; lia].
  pose proof (parts_refined _ _ _ _ _ _ _ _ _ _ _ L HL) as PR.
  destruct HL as (p & ps & -> & Ep & _ & _). exists (rd_before p). split; [left; reflexivity|]. intros C.
  destruct (PR p (or_introl eq_refl)) as [(_ & _ & _ & _ & _ & _ & K) P].
  specialize (K "number"%string C). rewrite Ep in K. vm_compute in K. assert (X : false = true); [|discriminate X].
  change false with (String.prefix "g_t" "number"). apply P. destruct (in_dec string_dec "number" (map snd (rd_table p))) as [H|H]; [exact H|].
  specialize (K H). discriminate.
Qed.
(** <a> = "foo bar"; <b> = "foo-bar"; *)
Definition text_twice : string := ("<a> = " ++ quoted "foo bar" ++ "; <b> = " ++ quoted "foo-bar" ++ ";")%string.
Definition power : string := "raised to the power of".
Lemma power_text : shipped_text (senv dir_math) dir_math "math.en.grammar" power.
Proof.
  assert (Hl : In dir_math shipped) by (unfold shipped; do 4 right; left; reflexivity).
  assert (Hn : In ("math.en.grammar"%string, math_math_en) dir_math) by (unfold dir_math; vm_compute; tauto).
  assert (W : existsb (fun it => negb (it_frame it) && existsb (fun b => existsb (fun t => match t_type t with TTerminal => String.eqb (t_value t) power | _ => false end) (rb_terms b)) (it_bodies it))
            (items_of (senv dir_math) (BigF 1 (-1)) (BigF 1 (-1)) math_math_en) = true) by (vm_compute; reflexivity).
  apply existsb_exists in W as (it & Hit & W). apply andb_true_iff in W as [W1 W3].
  apply existsb_exists in W3 as (b & Hb & W3). apply existsb_exists in W3 as (t & Ht & W3). apply negb_true_iff in W1.
  pose proof (shipped_alternative_back (senv dir_math) (senv_ok _) (BigF 1 (-1)) (BigF 1 (-1)) eq_refl eq_refl eq_refl dir_math _ _ it b Hl Hn ltac:(discriminate) Hit W1 Hb) as A.
  exists "math.en.grammar"%string, math_math_en, (it_name it), b, t. split; [left; reflexivity|]. split; [exact Hn|]. split; [exact A|]. split; [exact Ht|].
  clear - W3. destruct (t_type t); try discriminate W3. apply String.eqb_eq in W3. split; [reflexivity|exact W3].
Qed.
Lemma names_by_order :
  seen (from_string (xenv [] keep) 200 9 text_twice "n" []) = Some
    ([("a", [([("g_t_foo_bar", TNonterminal, MNil)], None)]);
      ("b", [([("g_t_foo_bar_0", TNonterminal, MNil)], None)]);
      ("g_t_foo_bar", [([("foo", TTerminal, MNil); ("bar", TTerminal, MNil)], None)]);
      ("g_t_foo_bar_0", [([("foo", TTerminal, MNil); ("-", TTerminal, MNil); ("bar", TTerminal, MNil)], None)])], [], [])%string /\
  seen (from_string (xenv [] backwards) 200 9 text_twice "n" []) = Some
    ([("b", [([("g_t_foo_bar", TNonterminal, MNil)], None)]);
      ("a", [([("g_t_foo_bar_0", TNonterminal, MNil)], None)]);
      ("g_t_foo_bar", [([("foo", TTerminal, MNil); ("-", TTerminal, MNil); ("bar", TTerminal, MNil)], None)]);
      ("g_t_foo_bar_0", [([("foo", TTerminal, MNil); ("bar", TTerminal, MNil)], None)])], [], [])%string.
Proof. split; vm_compute; reflexivity. Qed.
