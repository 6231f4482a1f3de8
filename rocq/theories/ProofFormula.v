(** Formulas have one reading; Semantic writes the formula of the node. *)
From Coq Require Import Ascii.
From Verif Require Import Base ModelTypes ModelText ModelEarley ModelTrees ModelApi ModelQuote ModelSem SpecGrammar SpecApi SpecTree SpecNode SpecSem
  ProofQuote ProofSem ProofSemMain SpecApi SpecFormula.
Local Open Scope list_scope.

Section FormulaInd.
  Variable P : formula -> Prop.
  Hypothesis Ht : forall s, P (F_text s).
  Hypothesis Hn : forall s, P (F_number s).
  Hypothesis Hj : forall s, P (F_json s).
  Hypothesis Hc : forall x l, Forall P l -> P (F_call x l).
  Fixpoint formula_ind' (f : formula) : P f :=
    match f with
    | F_text s => Ht s
    | F_number s => Hn s
    | F_json s => Hj s
    | F_call x l => Hc x l ((fix go (l : list formula) : Forall P l :=
        match l with [] => Forall_nil P | g :: l' => Forall_cons g (formula_ind' g) (go l') end) l)
    end.
End FormulaInd.

(** The first byte. *)
Definition starts_with (q : ascii -> Prop) (s : string) : Prop := match s with EmptyString => False | String c _ => q c end.
Definition stopped (s : string) : Prop := match s with EmptyString => True | String c _ => c = ","%char \/ c = ")"%char end.

Lemma plain_cons c s : plain_text (String c s) -> ~ special c /\ plain_text s.
Proof. intros H. split; [apply H; left; reflexivity|]. intros d Hd. apply H. right. exact Hd. Qed.
(** A plain text ends where the first special byte stands. *)
Lemma plain_ends s : forall t a b, plain_text s -> plain_text t ->
  match a with EmptyString => True | String c _ => special c end -> match b with EmptyString => True | String c _ => special c end ->
  (s ++ a = t ++ b)%string -> s = t /\ a = b.
Proof.
  induction s as [|c s IH]; intros t a b Hs Ht Ha Hb E.
  - destruct t as [|d t]; [split; [reflexivity|exact E]|]. cbn [String.append] in E. subst a. cbn in Ha.
    destruct (plain_cons _ _ Ht) as [N _]. contradiction.
  - destruct (plain_cons _ _ Hs) as [N Hs']. destruct t as [|d t].
    + cbn [String.append] in E. subst b. cbn in Hb. contradiction.
    + cbn [String.append] in E. injection E as -> E. destruct (plain_cons _ _ Ht) as [_ Ht'].
      destruct (IH t a b Hs' Ht' Ha Hb E) as [-> ->]. split; reflexivity.
Qed.
Lemma stopped_special a : stopped a -> match a with EmptyString => True | String c _ => special c end.
Proof. destruct a as [|c a]; [trivial|]. intros [-> | ->]; cbn; unfold special; cbn; auto. Qed.

Section Text.
  Variable is_print_hi : rune -> bool.
  Variable json : dval -> string.
  Hypothesis Hjson : json_objects json.
  Notation ftext := (formula_text is_print_hi).
  Notation fplain := (plain json).

  Lemma quote_start s : exists r, quote is_print_hi s = String """" r.
  Proof. unfold quote. eexists. reflexivity. Qed.
  (** What follows a name or a number cannot begin a formula. *)
  Lemma name_start x r : plain_text x -> exists c u, (x ++ "(" ++ r = String c u)%string /\ (~ special c \/ c = "("%char).
  Proof.
    intros H. destruct x as [|c x]; [exists "("%char, r; split; [reflexivity|right; reflexivity]|].
    exists c, (x ++ "(" ++ r)%string. split; [reflexivity|left; exact (proj1 (plain_cons _ _ H))].
  Qed.
  Lemma text_start f : fplain f -> exists c u, ftext f = String c u /\ c <> ","%char /\ c <> ")"%char.
  Proof.
    intros H. inversion H as [s|s Hn Hp|v|x l Hx Hl]; subst; cbn [formula_text].
    - destruct (quote_start s) as [r ->]. exists """"%char, r. repeat split; discriminate.
    - destruct s as [|c s]; [congruence|]. exists c, s. destruct (plain_cons _ _ Hp) as [N _].
      repeat split; intros ->; apply N; unfold special; cbn; auto.
    - destruct (proj1 Hjson v) as [r ->]. exists "{"%char, r. repeat split; discriminate.
    - destruct (name_start x (join ", " (map ftext l) ++ ")") Hx) as (c & u & E & N). exists c, u. split; [exact E|].
      destruct N as [N | ->]; split; try discriminate; intros ->; apply N; unfold special; cbn; auto.
  Qed.

  Lemma append_assoc3 a b c : ((a ++ b) ++ c = a ++ b ++ c)%string.
  Proof. apply ProofQuote.append_assoc. Qed.

  Lemma join_cons f l : join ", " (map ftext (f :: l)) = (ftext f ++ match l with [] => "" | _ => ", " ++ join ", " (map ftext l) end)%string.
  Proof. destruct l as [|g l]; [cbn; rewrite ProofQuote.append_nil_r; reflexivity|reflexivity]. Qed.
  Lemma join_text f l r : (join ", " (map ftext (f :: l)) ++ String ")" r =
    ftext f ++ match l with [] => String ")" r | _ => String "," (String " " (join ", " (map ftext l) ++ String ")" r)) end)%string.
  Proof. rewrite join_cons, append_assoc3. destruct l; [reflexivity|]. rewrite append_assoc3. reflexivity. Qed.
  Lemma rest_stopped (l : list formula) r :
    stopped (match l with [] => String ")" r | _ => String "," (String " " (join ", " (map ftext l) ++ String ")" r)) end)%string.
  Proof. destruct l; cbn; auto. Qed.

  Lemma one_reading f : forall g a b, fplain f -> fplain g -> stopped a -> stopped b ->
    (ftext f ++ a = ftext g ++ b)%string -> f = g /\ a = b.
  Proof.
    induction f as [s|s|s|x l IH] using formula_ind'; intros g a b Hf Hg Ha Hb E.
    - inversion Hg as [t|t Hn Hp|v|y m Hy Hm]; subst; cbn [formula_text] in E.
      + destruct (quote_inj is_print_hi _ _ _ _ E) as [-> ->]. split; reflexivity.
      + destruct (quote_start s) as [r Q]. rewrite Q in E. destruct t as [|c t]; [congruence|]. injection E as <- _.
        exfalso. apply (proj1 (plain_cons _ _ Hp)). unfold special. cbn. auto.
      + destruct (quote_start s) as [r Q]. rewrite Q in E. destruct (proj1 Hjson v) as [r' J]. rewrite J in E. discriminate.
      + destruct (quote_start s) as [r Q]. rewrite Q in E. rewrite !append_assoc3 in E.
        destruct (name_start y (join ", " (map ftext m) ++ ")" ++ b) Hy) as (c & u & E' & N).
        cbn [String.append] in E, E'. rewrite E' in E. injection E as <- _. destruct N as [N|N]; [|discriminate].
        exfalso. apply N. unfold special. cbn. auto.
    - inversion Hf as [|? Hn Hp| |]; subst. inversion Hg as [t|t Hn' Hp'|v|y m Hy Hm]; subst; cbn [formula_text] in E.
      + destruct (quote_start t) as [r Q]. rewrite Q in E. destruct s as [|c s]; [congruence|]. injection E as -> _.
        exfalso. apply (proj1 (plain_cons _ _ Hp)). unfold special. cbn. auto.
      + destruct (plain_ends s t a b Hp Hp' (stopped_special _ Ha) (stopped_special _ Hb) E) as [-> ->]. split; reflexivity.
      + destruct (proj1 Hjson v) as [r' J]. rewrite J in E. destruct s as [|c s]; [congruence|]. injection E as -> _.
        exfalso. apply (proj1 (plain_cons _ _ Hp)). unfold special. cbn. auto 6.
      + rewrite append_assoc3 in E. cbn [String.append] in E.
        apply (fun b Hb => plain_ends s y a b Hp Hy (stopped_special _ Ha) Hb) in E; [|cbn; unfold special; cbn; auto]. destruct E as [_ K].
        subst a. cbn in Ha. destruct Ha; discriminate.
    - inversion Hf as [| |v Hv|]; subst. inversion Hg as [t|t Hn' Hp'|w|y m Hy Hm]; subst; cbn [formula_text] in E.
      + destruct (quote_start t) as [r Q]. rewrite Q in E. destruct (proj1 Hjson v) as [r' J]. rewrite J in E. discriminate.
      + destruct (proj1 Hjson v) as [r' J]. rewrite J in E. destruct t as [|c t]; [congruence|]. injection E as <- _.
        exfalso. apply (proj1 (plain_cons _ _ Hp')). unfold special. cbn. auto 6.
      + destruct (proj2 Hjson _ _ _ _ E) as [-> ->]. split; reflexivity.
      + destruct (proj1 Hjson v) as [r' J]. rewrite J in E. rewrite !append_assoc3 in E.
        destruct (name_start y (join ", " (map ftext m) ++ ")" ++ b) Hy) as (c & u & E' & N).
        cbn [String.append] in E, E'. rewrite E' in E. injection E as <- _. destruct N as [N|N]; [|discriminate].
        exfalso. apply N. unfold special. cbn. auto 6.
    - inversion Hf as [| | |? ? Hx Hl]; subst. inversion Hg as [t|t Hn' Hp'|v|y m Hy Hm]; subst; cbn [formula_text] in E.
      + destruct (quote_start t) as [r Q]. rewrite Q in E. rewrite !append_assoc3 in E.
        destruct (name_start x (join ", " (map ftext l) ++ ")" ++ a) Hx) as (c & u & E' & N).
        cbn [String.append] in E, E'. rewrite E' in E. injection E as -> _. destruct N as [N|N]; [|discriminate].
        exfalso. apply N. unfold special. cbn. auto.
      + rewrite append_assoc3 in E. cbn [String.append] in E. symmetry in E.
        apply (fun b' Hb' => plain_ends t x b b' Hp' Hx (stopped_special _ Hb) Hb') in E; [|cbn; unfold special; cbn; auto]. destruct E as [_ K].
        subst b. cbn in Hb. destruct Hb; discriminate.
      + destruct (proj1 Hjson v) as [r' J]. rewrite J in E. rewrite !append_assoc3 in E.
        destruct (name_start x (join ", " (map ftext l) ++ ")" ++ a) Hx) as (c & u & E' & N).
        cbn [String.append] in E, E'. rewrite E' in E. injection E as -> _. destruct N as [N|N]; [|discriminate].
        exfalso. apply N. unfold special. cbn. auto 6.
      + rewrite !append_assoc3 in E. cbn [String.append] in E. 
        apply (fun a' b' Ha' Hb' => plain_ends x y a' b' Hx Hy Ha' Hb') in E; [|cbn; unfold special; cbn; auto|cbn; unfold special; cbn; auto].
        destruct E as [-> K].
        injection K as K.
        assert (L : l = m /\ a = b); [|destruct L as [-> ->]; split; reflexivity].
        clear Hf Hg Hx Hy. revert m Hm K. induction l as [|f l IHl]; intros m Hm K.
        * destruct m as [|g m]; [injection K as ->; split; reflexivity|]. inversion Hm; subst.
          rewrite join_text in K. destruct (text_start g) as (c & u & T & N1 & N2); [assumption|]. rewrite T in K.
          injection K as <- _. congruence.
        * inversion IH as [|? ? IHf IHl']; subst. inversion Hl as [|? ? Hf Hl']; subst. destruct m as [|g m].
          { rewrite join_text in K. destruct (text_start f) as (c & u & T & N1 & N2); [assumption|]. rewrite T in K.
            injection K as -> _. congruence. }
          inversion Hm as [|? ? Hg Hm']; subst. rewrite !join_text in K.
          destruct (IHf g _ _ Hf Hg (rest_stopped _ _) (rest_stopped _ _) K) as [-> K']. clear K.
          destruct l as [|f' l]; destruct m as [|g' m]; try (cbn in K'; discriminate).
          -- injection K' as ->. split; reflexivity.
          -- cbn [String.append] in K'. injection K' as K'. destruct (IHl IHl' Hl' (g' :: m) Hm' K') as [E2 ->]. rewrite E2. split; reflexivity.
  Qed.
  Lemma same_formula f g : fplain f -> fplain g -> ftext f = ftext g -> f = g.
  Proof.
    intros Hf Hg E. apply (one_reading f g "" "" Hf Hg I I). rewrite !ProofQuote.append_nil_r. exact E.
  Qed.
End Text.

(** ** The formula of a node *)
Section Node.
  Variable is_print_hi : rune -> bool.
  Variable json : dval -> string.
  Variable p : parse_t.
  Variable join_words : list string -> string.
  Variable float_string : bigf -> string.
  Variable call : string -> list dval -> res dval.
  Notation ftext := (formula_text is_print_hi).
  Notation NF := (node_formula json p join_words float_string call).
  Notation FF := (fun_formula json p join_words float_string call).
  Notation AFS := (arg_formulas json p join_words float_string call).
  Notation AF := (arg_formula json p join_words float_string call).

  Lemma sem_formula :
    (forall n s, Sem p join_words float_string json is_print_hi call n s -> exists g, NF n g /\ s = ftext g) /\
    (forall n f s, FSem p join_words float_string json is_print_hi call n f s -> exists g, FF n f g /\ s = ftext g) /\
    (forall n l ss, ASems p join_words float_string json is_print_hi call n l ss -> exists gs, AFS n l gs /\ ss = map ftext gs) /\
    (forall n a s, ASem p join_words float_string json is_print_hi call n a s -> exists g, AF n a g /\ s = ftext g).
  Proof.
    apply Sem_mutind.
    - intros n t Hf Ht. exists (F_text t). split; [apply nf_plain; assumption|reflexivity].
    - intros n f t s Hf Ht _ (g & Hg & ->). exists g. split; [eapply nf_fun; eassumption|reflexivity].
    - intros n a s _ (g & Hg & ->). exists g. split; [apply ff_identity; exact Hg|reflexivity].
    - intros n fn args ss Hn _ (gs & Hg & ->). exists (F_call fn gs). split; [apply ff_call; assumption|reflexivity].
    - intros n. exists []. split; [constructor|reflexivity].
    - intros n a args s ss _ (g & Hg & ->) _ (gs & Hgs & ->). exists (g :: gs). split; [constructor; assumption|reflexivity].
    - intros n s. exists (F_text s). split; [constructor|reflexivity].
    - intros n z. exists (F_number (dec_Z z)). split; [constructor|reflexivity].
    - intros n x. exists (F_number (float_string x)). split; [constructor|reflexivity].
    - intros n f s _ (g & Hg & ->). exists g. split; [constructor; exact Hg|reflexivity].
    - intros n t Ht. exists (F_text t). split; [constructor; exact Ht|reflexivity].
    - intros n k c s Hc _ (g & Hg & ->). exists g. split; [eapply af_child; eassumption|reflexivity].
    - intros n v c Hc. exists (F_json (json c)). split; [constructor; exact Hc|reflexivity].
  Qed.
  Lemma formula_sem :
    (forall n g, NF n g -> Sem p join_words float_string json is_print_hi call n (ftext g)) /\
    (forall n f g, FF n f g -> FSem p join_words float_string json is_print_hi call n f (ftext g)) /\
    (forall n l gs, AFS n l gs -> ASems p join_words float_string json is_print_hi call n l (map ftext gs)) /\
    (forall n a g, AF n a g -> ASem p join_words float_string json is_print_hi call n a (ftext g)).
  Proof.
    apply formula_mutind.
    - intros n t Hf Ht. apply Sem_plain; assumption.
    - intros n f t g Hf Ht _ IH. eapply Sem_fun; eassumption.
    - intros n a g _ IH. apply FS_identity. exact IH.
    - intros n fn args gs Hn _ IH. apply FS_call; assumption.
    - intros n. constructor.
    - intros n a args g gs _ IH _ IHs. cbn [map]. constructor; assumption.
    - intros n s. constructor.
    - intros n z. constructor.
    - intros n x. constructor.
    - intros n f g _ IH. constructor. exact IH.
    - intros n t Ht. apply AS_zero. exact Ht.
    - intros n k c g Hc _ IH. eapply AS_child; eassumption.
    - intros n v c Hc. constructor. exact Hc.
  Qed.
  Lemma semantic_formula n s :
    semantic p join_words float_string json is_print_hi call n = Ret s <-> exists g, NF n g /\ s = ftext g.
  Proof.
    rewrite semantic_iff. split; [apply (proj1 sem_formula)|]. intros (g & Hg & ->). apply (proj1 formula_sem). exact Hg.
  Qed.

  (** Where the parts of the formula come from, for nodes below [t]. *)
  Section From.
    Variable names numbers texts objects : string -> Prop.
    Variable t : node.
    Hypothesis Hw : forall n s, part_of t n -> node_nl p join_words n = Ret s -> texts s.
    Hypothesis Ho : forall v, objects (json v).
    Definition good_fun (f : fmr) : Prop :=
      (forall x, fun_name f x -> x <> "nf.I"%string -> names x) /\
      (forall s, fun_constant f (VStr s) -> texts s) /\
      (forall z, fun_constant f (VInt z) -> numbers (dec_Z z)) /\
      (forall x, fun_constant f (VFloat x) -> numbers (float_string x)).
    Definition good_arg (a : arg) : Prop :=
      match a with Arg ty v =>
        (forall s, v = VStr s -> texts s) /\ (forall z, v = VInt z -> numbers (dec_Z z)) /\
        (forall x, v = VFloat x -> numbers (float_string x)) /\ (forall f, ty = "func"%string -> v = VFunc f -> good_fun f) end.
    Hypothesis Hf : forall n f, part_of t n -> function_of n = Some f -> good_fun f.
    Lemma good_args fn args : good_fun (FMR fn args) -> Forall good_arg args.
    Proof.
      intros (N & S & Z & X). apply Forall_forall. intros [ty v] Hin. split; [|split; [|split]].
      - intros s ->. apply S. eapply fc_here. exact Hin.
      - intros z ->. apply Z. eapply fc_here. exact Hin.
      - intros x ->. apply X. eapply fc_here. exact Hin.
      - intros f -> ->. split; [|split; [|split]].
        + intros x Hx. apply N. eapply fn_inside; eassumption.
        + intros s Hs. apply S. eapply fc_inside; eassumption.
        + intros z Hz. apply Z. eapply fc_inside; eassumption.
        + intros x Hx. apply X. eapply fc_inside; eassumption.
    Qed.
    Lemma formula_from :
      (forall n g, NF n g -> part_of t n -> made_of names numbers texts objects g) /\
      (forall n f g, FF n f g -> part_of t n -> good_fun f -> made_of names numbers texts objects g) /\
      (forall n l gs, AFS n l gs -> part_of t n -> Forall good_arg l -> Forall (made_of names numbers texts objects) gs) /\
      (forall n a g, AF n a g -> part_of t n -> good_arg a -> made_of names numbers texts objects g).
    Proof.
      apply formula_mutind.
      - intros n s _ Hs Hn. apply mo_text. eapply Hw; eassumption.
      - intros n f s g Hfn _ _ IH Hn. apply IH; [exact Hn|]. eapply Hf; eassumption.
      - intros n a g _ IH Hn Hg. apply good_args in Hg. inversion Hg; subst. apply IH; assumption.
      - intros n fn args gs Hfn _ IH Hn Hg. apply mo_call; [apply (proj1 Hg); [apply fn_here|exact Hfn]|].
        apply IH; [exact Hn|]. eapply good_args. exact Hg.
      - intros n Hn _. constructor.
      - intros n a args g gs _ IH _ IHs Hn Hl. inversion Hl; subst. constructor; [apply IH|apply IHs]; assumption.
      - intros n s Hn (A & _). apply mo_text. apply A. reflexivity.
      - intros n z Hn (_ & A & _). apply mo_number. apply A. reflexivity.
      - intros n x Hn (_ & _ & A & _). apply mo_number. apply A. reflexivity.
      - intros n f g _ IH Hn (_ & _ & _ & A). apply IH; [exact Hn|]. apply A; reflexivity.
      - intros n s Hs Hn _. apply mo_text. eapply Hw; eassumption.
      - intros n k c g Hc _ IH Hn _. apply IH. eapply part_trans; [exact Hn|].
        destruct n as [v ch]. cbn [n_children] in Hc. eapply po_kid; [eapply nth_error_In; exact Hc|apply po_self].
      - intros n v c _ Hn _. apply mo_json. apply Ho.
    Qed.
  End From.
End Node.

Lemma made_plain json (names numbers texts objects : string -> Prop) g : (forall x, names x -> plain_text x) ->
  (forall s, numbers s -> s <> ""%string /\ plain_text s) -> (forall s, objects s -> exists v, s = json v) ->
  made_of names numbers texts objects g -> plain json g.
Proof.
  intros Hx Hn Ho. induction g as [s|s|s|x l IH] using formula_ind'; intros H; inversion H as [? A|? A|? A|? ? A B]; subst.
  - apply p_text.
  - destruct (Hn _ A). apply p_number; assumption.
  - destruct (Ho _ A) as [v ->]. apply p_json.
  - apply p_call; [apply Hx, A|]. rewrite Forall_forall in *. intros g Hg. apply IH; [exact Hg|]. apply B. exact Hg.
Qed.

(** ** Trees of parses *)
Section Tree.
  Variable tmatch : term -> option token -> bool.
  Variable ords : nat -> order.
  Variable gs : list grammar_rules.
  Variable text : string.
  Variables (fuel n : nat) (mf : bool) (toks : list token) (starts : list string) (p : parse_t).
  Hypothesis Ho : is_order (ords n).
  Hypothesis Hp : earley_parse_n tmatch ords gs text fuel n mf toks starts = Ret p.
  Hypothesis Hwf : well_formed gs starts.
  Hypothesis Hsep : separated gs.
  Variable is_print_hi : rune -> bool.
  Variable json : dval -> string.
  Variable join_words : list string -> string.
  Variable float_string : bigf -> string.
  Variable call : string -> list dval -> res dval.

  Lemma index_only (l : list arg) fn : (forall a, In a l -> exists i, a = Arg "index" (VIdx i)) ->
    (forall x, fun_name (FMR fn l) x -> x = fn) /\ (forall v, fun_constant (FMR fn l) v -> exists i, v = VIdx i).
  Proof.
    intros H. split.
    - intros x Hx. inversion Hx as [|? ? f ? Hin _]; subst; [reflexivity|]. destruct (H _ Hin) as [i E]. discriminate.
    - intros v Hv. inversion Hv as [? ? ty ? Hin|? ? f ? Hin _]; subst; destruct (H _ Hin) as [i E]; [|discriminate].
      injection E as _ ->. exists i. reflexivity.
  Qed.
  Lemma tree_formula t m g : tree_of_parse p t -> part_of t m -> node_formula json p join_words float_string call m g ->
    made_of (grammar_name gs) (grammar_number gs float_string)
      (fun s => grammar_constant gs (VStr s) \/ words join_words toks s) (fun s => exists v, s = json v) g.
  Proof.
    intros Ht Hm Hg.
    eapply (proj1 (formula_from json p join_words float_string call _ _ _ _ t _ _ _)); [exact Hg|exact Hm].
    Unshelve.
    - intros x s Hx Hs. right. rewrite (node_words tmatch ords gs text fuel n mf toks starts p Ho Hp Hwf Hsep join_words t x Ht Hx) in Hs.
      injection Hs as <-. eexists _, _. reflexivity.
    - intros v. exists v. reflexivity.
    - intros x f Hx Hf.
      destruct (tree_nodes tmatch ords gs text fuel n mf toks starts p Ho Hp Hwf Hsep t x Ht Hx) as (_ & _ & Hk & _).
      unfold function_of in Hf. destruct (s_rb (n_value x)) as [b|]; [|discriminate].
      destruct Hk as [_ [Hb|[->|[S ->]]]].
      + assert (F : has_function gs f) by (exists (t_value (s_term (n_value x))), b; split; assumption).
        split; [intros y Hy _; right; exists f; split; assumption|]. split; [intros s Hs; left; exists f; split; assumption|].
        split; [intros z Hz; left; exists z; split; [exists f; split; assumption|reflexivity]|].
        intros y Hy. right. exists y. split; [exists f; split; assumption|reflexivity].
      + cbn [rb_f list_rb] in Hf. injection Hf as <-.
        match goal with |- good_fun _ _ _ _ (FMR ?fn ?l) => destruct (index_only l fn) as [A B] end.
        { intros a Ha. apply in_map_iff in Ha. destruct Ha as (i & <- & _). eexists. reflexivity. }
        split; [intros y Hy _; left; exact (A _ Hy)|]. split; [intros s Hs|split; [intros z Hz|intros y Hy]].
        * destruct (B _ Hs) as [i E]. discriminate.
        * destruct (B _ Hz) as [i E]. discriminate.
        * destruct (B _ Hy) as [i E]. discriminate.
      + cbn [rb_f gamma_body] in Hf. injection Hf as <-.
        match goal with |- good_fun _ _ _ _ (FMR ?fn ?l) => destruct (index_only l fn) as [A B] end.
        { intros a [<-|[]]. eexists. reflexivity. }
        split; [intros y Hy Hn; elim Hn; exact (A _ Hy)|]. split; [intros s Hs|split; [intros z Hz|intros y Hy]].
        * destruct (B _ Hs) as [i E]. discriminate.
        * destruct (B _ Hz) as [i E]. discriminate.
        * destruct (B _ Hy) as [i E]. discriminate.
  Qed.
End Tree.
