(** A recognizer for grammar texts with ASCII names, and its soundness: what it
    returns stands in the notation relation of SpecNotation. *)
From Verif Require Import Base ModelTypes ModelText ModelEarley SpecNotation.

Definition parser A := list rune -> option (A * list rune).
Definition sound {A} (p : parser A) (R : A -> list rune -> Prop) : Prop :=
  forall w x r, p w = Some (x, r) -> exists u, w = u ++ r /\ R x u.
Definition bind {A B} (p : parser A) (f : A -> parser B) : parser B :=
  fun w => match p w with Some (x, r) => f x r | None => None end.
Definition give {A} (x : A) : parser A := fun w => Some (x, w).
Definition stop {A} : parser A := fun _ => None.
Definition char (c : rune) : parser unit :=
  fun w => match w with c' :: r => if Z.eqb c' c then Some (tt, r) else None | [] => None end.
(** look at the next rune *)
Definition look {A} (f : rune -> parser A) : parser A :=
  fun w => match w with c :: _ => f c w | [] => None end.

Definition seq_of {A B} (R : A -> list rune -> Prop) (Q : A -> B -> list rune -> Prop) : B -> list rune -> Prop :=
  fun y u => exists x a b, u = a ++ b /\ R x a /\ Q x y b.

Lemma sound_bind {A B} (p : parser A) (f : A -> parser B) R Q :
  sound p R -> (forall x, sound (f x) (Q x)) -> sound (bind p f) (seq_of R Q).
Proof.
  intros H K w y r E. unfold bind in E. destruct (p w) as [[x r']|] eqn:P; [|discriminate].
  destruct (H _ _ _ P) as (a & -> & Ra). destruct (K _ _ _ _ E) as (b & -> & Qb).
  exists (a ++ b). split; [apply app_assoc|]. exists x, a, b. auto.
Qed.
Lemma bind_some {A B} (p : parser A) (f : A -> parser B) w y r :
  bind p f w = Some (y, r) -> exists x w', p w = Some (x, w') /\ f x w' = Some (y, r).
Proof. unfold bind. destruct (p w) as [[x r']|]; [|discriminate]. eauto. Qed.
Lemma give_some {A} (x y : A) w r : give x w = Some (y, r) -> y = x /\ r = w.
Proof. intro E. injection E as <- <-. auto. Qed.
Lemma look_some {A} (f : rune -> parser A) w y r : look f w = Some (y, r) -> exists c w', w = c :: w' /\ f c w = Some (y, r).
Proof. destruct w as [|c w]; [discriminate|]. cbn. eauto. Qed.
Lemma sound_give {A} (x : A) : sound (give x) (fun y u => y = x /\ u = []).
Proof. intros w y r E. injection E as <- <-. exists []. auto. Qed.
Lemma sound_stop {A} (R : A -> list rune -> Prop) : sound stop R.
Proof. intros w y r E. discriminate. Qed.
Lemma sound_char c : sound (char c) (fun _ u => u = [c]).
Proof.
  intros w y r E. destruct w as [|c' w]; [discriminate|]. cbn in E. destruct (Z.eqb c' c) eqn:C; [|discriminate].
  apply Z.eqb_eq in C. injection E as <- <-. subst. exists [c]. auto.
Qed.
Lemma sound_look {A} (f : rune -> parser A) R : (forall c, sound (f c) R) -> sound (look f) R.
Proof. intros H w y r E. destruct w as [|c w]; [discriminate|]. exact (H c _ _ _ E). Qed.
Lemma sound_weak {A} (p : parser A) (R R' : A -> list rune -> Prop) :
  sound p R -> (forall x u, R x u -> R' x u) -> sound p R'.
Proof. intros H K w y r E. destruct (H _ _ _ E) as (u & -> & Ru). exists u. auto. Qed.
Lemma sound_if {A} (b : bool) (p q : parser A) R : (b = true -> sound p R) -> (b = false -> sound q R) -> sound (if b then p else q) R.
Proof. destruct b; auto. Qed.

(** runs of characters *)
Fixpoint run (f : rune -> bool) (w : list rune) : list rune * list rune :=
  match w with
  | c :: w' => if f c then let '(a, b) := run f w' in (c :: a, b) else ([], w)
  | [] => ([], [])
  end.
Lemma run_ok f w : forall a b, run f w = (a, b) ->
  w = a ++ b /\ Forall (fun c => f c = true) a /\ match b with [] => True | c :: _ => f c = false end.
Proof.
  induction w as [|c w IH]; intros a b E; cbn in E; [injection E as <- <-; auto|].
  destruct (f c) eqn:F.
  - destruct (run f w) as [a' b']. injection E as <- <-. destruct (IH _ _ eq_refl) as (-> & H & K). auto.
  - injection E as <- <-. auto.
Qed.
Definition many (f : rune -> bool) : parser (list rune) := fun w => Some (run f w).
Lemma sound_many f : sound (many f) (fun x u => x = u /\ Forall (fun c => f c = true) u).
Proof.
  intros w x r E. unfold many in E. destruct (run f w) as [a b] eqn:F. injection E as <- <-.
  destruct (run_ok _ _ _ _ F) as (-> & H & _). exists a. auto.
Qed.

(** up to the first */ *)
Fixpoint until_close (w : list rune) : option (list rune * list rune) :=
  match w with
  | [] => None
  | c :: w' =>
      match w' with
      | d :: r => if Z.eqb c 42 && Z.eqb d 47 then Some ([], r)
                  else match until_close w' with Some (a, b) => Some (c :: a, b) | None => None end
      | [] => None
      end
  end.
Lemma until_close_ok w : forall a b, until_close w = Some (a, b) -> w = a ++ [42; 47]%Z ++ b /\ ~ closes a.
Proof.
  induction w as [|c w IH]; intros a b E; [discriminate|]. cbn [until_close] in E. destruct w as [|d r]; [discriminate|].
  destruct (Z.eqb c 42 && Z.eqb d 47) eqn:CD.
  - injection E as <- <-. apply andb_prop in CD as [C D]. apply Z.eqb_eq in C, D. subst. split; [reflexivity|].
    intros (x & y & H). destruct x; discriminate.
  - destruct (until_close (d :: r)) as [[a' b']|] eqn:U; [|discriminate]. injection E as <- <-.
    destruct (IH _ _ eq_refl) as (E & N). split; [cbn; rewrite E; reflexivity|].
    intros (x & y & H). destruct x as [|x0 x].
    + cbn in H. injection H as -> ->. cbn in E. injection E as -> _. cbn in CD. discriminate.
    + cbn in H. injection H as _ ->. apply N. exists x, y. reflexivity.
Qed.

Fixpoint p_gap (fuel : nat) (w : list rune) : list rune :=
  match fuel with
  | O => w
  | S n =>
      match w with
      | c :: w' =>
          if is_space c then p_gap n w'
          else if Z.eqb c 47 then
            match w' with
            | d :: w2 =>
                if Z.eqb d 47 then
                  match run (fun c => negb (Z.eqb c 10)) w2 with (_, _ :: r) => p_gap n r | _ => w end
                else if Z.eqb d 42 then match until_close w2 with Some (_, r) => p_gap n r | None => w end
                else w
            | [] => w
            end
          else w
      | [] => w
      end
  end.
Lemma p_gap_ok fuel : forall w, exists u, w = u ++ p_gap fuel w /\ gap u.
Proof.
  assert (Z0 : forall w : list rune, exists u, w = u ++ w /\ gap u) by (intro w; exists []; split; [reflexivity|constructor]).
  induction fuel as [|n IH]; intro w; cbn [p_gap]; [apply Z0|].
  destruct w as [|c w]; [apply Z0|]. destruct (is_space c) eqn:S.
  { destruct (IH w) as (u & E & G). exists (c :: u). split; [cbn; rewrite <- E; reflexivity|]. constructor; assumption. }
  destruct (Z.eqb c 47) eqn:C; [|apply Z0]. apply Z.eqb_eq in C. subst. destruct w as [|d w]; [apply Z0|].
  destruct (Z.eqb d 47) eqn:D.
  - apply Z.eqb_eq in D. subst. destruct (run _ w) as [a [|x r]] eqn:R; [apply Z0|].
    destruct (run_ok _ _ _ _ R) as (-> & F & K). apply negb_false_iff, Z.eqb_eq in K. subst.
    destruct (IH r) as (u & E & G). exists ([47; 47]%Z ++ a ++ [10]%Z ++ u). split.
    + cbn. rewrite <- app_assoc. cbn. rewrite <- E. reflexivity.
    + constructor; [|exact G]. intro I. rewrite Forall_forall in F. specialize (F _ I). discriminate.
  - destruct (Z.eqb d 42) eqn:D2; [|apply Z0]. apply Z.eqb_eq in D2. subst.
    destruct (until_close w) as [[a r]|] eqn:U; [|apply Z0]. destruct (until_close_ok _ _ _ U) as (-> & N).
    destruct (IH r) as (u & E & G). exists ([47; 42]%Z ++ a ++ [42; 47]%Z ++ u). split.
    + cbn. rewrite <- app_assoc. cbn. rewrite <- E. reflexivity.
    + constructor; assumption.
Qed.
Definition gaps : parser unit := fun w => Some (tt, p_gap (length w) w).
Lemma sound_gaps : sound gaps (fun _ u => gap u).
Proof. intros w x r E. injection E as <- <-. apply p_gap_ok. Qed.
Definition blanks : parser unit := bind (many is_space) (fun _ => give tt).
Lemma sound_blanks : sound blanks (fun _ u => spaces u).
Proof.
  eapply sound_weak; [apply sound_bind; [apply sound_many|intro; apply sound_give]|].
  intros x u (y & a & b & -> & (-> & F) & _ & ->). rewrite app_nil_r. exact F.
Qed.

(** characters of ASCII names *)
Definition a_letter (c : rune) : bool := ((65 <=? c) && (c <=? 90) || (97 <=? c) && (c <=? 122))%Z.
Definition a_digit (c : rune) : bool := ((48 <=? c) && (c <=? 57))%Z.
Definition a_first (c : rune) : bool := a_letter c || Z.eqb c 95.
Definition a_char (c : rune) : bool := a_letter c || Z.eqb c 95 || a_digit c.

Definition p_name : parser (list rune) :=
  bind (many a_char) (fun n => match n with [] => stop | c :: _ => if a_first c then give n else stop end).
Fixpoint dotted (w : list rune) : bool :=
  match w with
  | c :: w' => match w' with d :: _ => Z.eqb c 46 && Z.eqb d 46 || dotted w' | [] => false end
  | [] => false
  end.
Lemma dotted_ok w : dotted w = false -> ~ exists a b, w = a ++ [46; 46]%Z ++ b.
Proof.
  intros H (a & b & ->). induction a as [|c a IH]; [discriminate|]. cbn [app dotted] in H.
  change (46%Z :: 46%Z :: b) with ([46; 46]%Z ++ b) in H.
  destruct (a ++ [46; 46]%Z ++ b) as [|d l] eqn:E; [destruct a; discriminate|].
  apply orb_false_iff in H as [_ H]. exact (IH H).
Qed.
Definition p_func_name : parser (list rune) :=
  bind (many (fun c => a_char c || Z.eqb c 46)) (fun n =>
    match n with [] => stop | c :: _ => if a_first c && negb (dotted n) then give n else stop end).

Fixpoint p_spell (fuel : nat) : parser (list rune) :=
  match fuel with
  | O => stop
  | S n => fun w =>
      match w with
      | [] => None
      | c :: r =>
          if Z.eqb c 34 then Some ([], w)
          else if Z.eqb c 92 then
            match r with
            | d :: r' =>
                let k x := match p_spell n r' with Some (cs, r2) => Some (x :: cs, r2) | None => None end in
                if Z.eqb d 92 then k 92%Z else if Z.eqb d 110 then k 10%Z else if Z.eqb d 116 then k 9%Z
                else if Z.eqb d 34 then k 34%Z else if Z.eqb d 40 then k 40%Z else None
            | [] => None
            end
          else match p_spell n r with Some (cs, r2) => Some (c :: cs, r2) | None => None end
      end
  end.
Lemma sound_spell fuel : sound (p_spell fuel) spells.
Proof.
  induction fuel as [|n IH]; intros w x r E; [discriminate|]. cbn [p_spell] in E.
  destruct w as [|c w]; [discriminate|]. destruct (Z.eqb c 34) eqn:Q.
  { injection E as <- <-. exists []. split; [reflexivity|constructor]. }
  destruct (Z.eqb c 92) eqn:B.
  - apply Z.eqb_eq in B. subst. destruct w as [|d w]; [discriminate|].
    assert (K : forall y, escape d y -> match p_spell n w with Some (cs, r2) => Some (y :: cs, r2) | None => None end = Some (x, r) ->
                exists u, 92%Z :: d :: w = u ++ r /\ spells x u).
    { intros y Hy E'. destruct (p_spell n w) as [[cs r2]|] eqn:P; [|discriminate]. injection E' as <- <-.
      destruct (IH _ _ _ P) as (u & -> & S). exists (92%Z :: d :: u). split; [reflexivity|]. constructor; assumption. }
    repeat match type of E with (if Z.eqb d ?z then _ else _) = _ => let D := fresh in destruct (Z.eqb d z) eqn:D;
      [apply Z.eqb_eq in D; subst; eapply K; [constructor|exact E]|clear D] end. discriminate.
  - destruct (p_spell n w) as [[cs r2]|] eqn:P; [|discriminate]. injection E as <- <-.
    destruct (IH _ _ _ P) as (u & -> & S). exists (c :: u). split; [reflexivity|].
    apply Z.eqb_neq in Q, B. constructor; assumption.
Qed.
Definition p_spells : parser (list rune) := fun w => p_spell (length w) w.
Lemma sound_spells : sound p_spells spells.
Proof. intros w x r E. exact (sound_spell _ _ _ _ E). Qed.

Section Recognizer.
  Variables letter digit : rune -> bool.
  Variable scan_float : string -> res bigf.
  Variable regexp_ok : string -> bool.
  Variable md5 : string -> string.
  Hypothesis letters : forall c, a_letter c = true -> letter c = true.
  Hypothesis digits_ : forall c, a_digit c = true -> digit c = true.
  (** the fractions and patterns that occur, with value and name *)
  Variable fractions : list (string * bigf).
  Hypothesis fractions_ok : forall s f, In (s, f) fractions -> scan_float s = Ret f.
  Variable patterns : list (string * string).
  Hypothesis patterns_ok : forall x h, In (x, h) patterns ->
    regexp_ok x = true /\ 16 <= String.length (md5 x) /\ h = substring 0 16 (md5 x).

  Fixpoint assoc {A} (l : list (string * A)) (s : string) : option A :=
    match l with [] => None | (k, a) :: l' => if String.eqb k s then Some a else assoc l' s end.
  Lemma assoc_in {A} (l : list (string * A)) s a : assoc l s = Some a -> In (s, a) l.
  Proof.
    induction l as [|[k b] l IH]; cbn; [discriminate|]. destruct (String.eqb_spec k s); [|auto].
    intro E. injection E as ->. subst. auto.
  Qed.

  Lemma first_ok c : a_first c = true -> name_first letter c.
  Proof using letters. unfold a_first, name_first. intro H. apply orb_prop in H as [H|H]; [auto|apply Z.eqb_eq in H; auto]. Qed.
  Lemma char_ok c : a_char c = true -> name_char letter digit c.
  Proof using letters digits_.
    unfold a_char, name_char. intro H. apply orb_prop in H as [H|H]; [|auto].
    apply orb_prop in H as [H|H]; [auto|apply Z.eqb_eq in H; auto].
  Qed.
  Lemma sound_name : sound p_name (fun x u => x = u /\ name_text letter digit u).
  Proof using letters digits_.
    intros w x r E. unfold p_name, bind, many in E. destruct (run a_char w) as [[|c n] b] eqn:F; [discriminate|].
    destruct (run_ok _ _ _ _ F) as (-> & K & _). destruct (a_first c) eqn:Fc; [|discriminate]. injection E as <- <-.
    exists (c :: n). split; [reflexivity|]. split; [reflexivity|]. inversion_clear K.
    split; [apply first_ok; exact Fc|]. eapply Forall_impl; [|exact H0]. intros; apply char_ok; assumption.
  Qed.
  Lemma sound_func_name : sound p_func_name (fun x u => x = u /\ func_text letter digit u).
  Proof using letters digits_.
    intros w x r E. unfold p_func_name, bind, many in E. destruct (run _ w) as [[|c n] b] eqn:F; [discriminate|].
    destruct (run_ok _ _ _ _ F) as (-> & K & _). destruct (a_first c && negb (dotted (c :: n))) eqn:Fc; [|discriminate].
    injection E as <- <-. apply andb_prop in Fc as [Fc D]. apply negb_true_iff in D.
    exists (c :: n). split; [reflexivity|]. split; [reflexivity|]. split; [|apply dotted_ok; exact D]. inversion_clear K.
    split; [apply first_ok; exact Fc|]. eapply Forall_impl; [|exact H0]. cbn. intros a H1.
    apply orb_prop in H1 as [H1|H1]; [left; apply char_ok; exact H1|right; apply Z.eqb_eq; exact H1].
  Qed.

  (** flags and text of a quoted text *)
  Definition p_literal : parser (string * string) :=
    bind (char 34%Z) (fun _ => bind blanks (fun _ => look (fun c =>
      if Z.eqb c 40 then
        bind (char 40%Z) (fun _ => bind blanks (fun _ => bind (char 63%Z) (fun _ => bind blanks (fun _ =>
        bind p_name (fun fl => bind (char 41%Z) (fun _ => bind p_spells (fun cs => bind (char 34%Z) (fun _ =>
        give (encode fl, encode cs)))))))))
      else bind p_spells (fun cs => bind (char 34%Z) (fun _ => give (""%string, encode cs)))))).
  Lemma sound_literal : sound p_literal (fun ft u => w_literal letter digit (fst ft) (snd ft) u).
  Proof using letters digits_.
    intros w x r E. unfold p_literal in E.
    apply bind_some in E as (? & w1 & E1 & E). apply sound_char in E1 as (? & -> & ->).
    apply bind_some in E as (? & w2 & E1 & E). unfold blanks in E1.
    apply bind_some in E1 as (sp & w3 & E1 & E2). apply give_some in E2 as (_ & ->). unfold many in E1. injection E1 as E1.
    apply run_ok in E1 as (-> & Hsp & Hd).
    apply look_some in E as (c & w4 & -> & E). destruct (Z.eqb c 40) eqn:C.
    - apply bind_some in E as (? & w5 & E1 & E). apply sound_char in E1 as (? & -> & ->).
      apply bind_some in E as (? & w6 & E1 & E). apply sound_blanks in E1 as (sp2 & -> & Hsp2).
      apply bind_some in E as (? & w7 & E1 & E). apply sound_char in E1 as (? & -> & ->).
      apply bind_some in E as (? & w8 & E1 & E). apply sound_blanks in E1 as (sp3 & -> & Hsp3).
      apply bind_some in E as (fl & w9 & E1 & E). apply sound_name in E1 as (? & -> & <- & Hfl).
      apply bind_some in E as (? & w10 & E1 & E). apply sound_char in E1 as (? & -> & ->).
      apply bind_some in E as (cs & w11 & E1 & E). apply sound_spells in E1 as (u & -> & Hu).
      apply bind_some in E as (? & w12 & E1 & E). apply sound_char in E1 as (? & -> & ->).
      apply give_some in E as (-> & ->).
      exists ([34]%Z ++ sp ++ [40]%Z ++ sp2 ++ [63]%Z ++ sp3 ++ fl ++ [41]%Z ++ u ++ [34]%Z).
      split; [rewrite <- !app_assoc; reflexivity|]. apply lit_flags; assumption.
    - apply bind_some in E as (cs & w11 & E1 & E). apply sound_spells in E1 as (u & Eu & Hu).
      apply bind_some in E as (? & w12 & E1 & E). apply sound_char in E1 as (? & -> & ->).
      apply give_some in E as (-> & ->). exists ([34]%Z ++ sp ++ u ++ [34]%Z).
      split; [rewrite Eu, <- !app_assoc; reflexivity|].
      apply lit_plain; try assumption. destruct u as [|c' u]; [exact I|]. injection Eu as -> _.
      apply Z.eqb_neq in C. auto.
  Qed.

  (** numbers: digits, or digits with a point *)
  Definition p_number (sign : string) : parser arg :=
    bind (many a_digit) (fun ds =>
      match ds with
      | [] => stop
      | d :: ds' => fun w =>
          match w with
          | c :: w' =>
              if Z.eqb c 46 then
                bind (many a_digit) (fun fs => fun w2 =>
                  match assoc fractions (sign ++ encode (ds ++ [46]%Z ++ fs))%string with
                  | Some f => Some (Arg "float" (VFloat f), w2)
                  | None => None
                  end) w'
              else if negb (Z.eqb d 48) || match ds' with [] => true | _ => false end
              then Some (Arg "int" (VInt (if String.eqb sign "" then decimal_value ds else - decimal_value ds)), w)
              else None
          | [] => None
          end
      end).
  Notation w_arg' := (w_arg letter digit scan_float).
  Notation w_args' := (w_args letter digit scan_float).
  Notation w_fmr' := (w_fmr letter digit scan_float).
  Lemma a_digits_decimals ds : Forall (fun c => a_digit c = true) ds -> decimals ds.
  Proof. apply Forall_impl. intros c H. apply andb_prop in H as [H1 H2]. apply Z.leb_le in H1, H2. lia. Qed.
  Lemma a_digits_digits ds : Forall (fun c => a_digit c = true) ds -> Forall (fun c => digit c = true) ds.
  Proof using digits_. apply Forall_impl. auto. Qed.
  Lemma p_number_ok sign w x r : p_number sign w = Some (x, r) ->
    exists d ds, w = (d :: ds) ++ r /\ digit d = true /\
      ((exists f, x = Arg "float" (VFloat f) /\ float_literal digit scan_float (d :: ds) sign f) \/
       (exists z, x = Arg "int" (VInt (if String.eqb sign "" then z else - z)%Z) /\ int_literal digit (d :: ds) z)).
  Proof using digits_ fractions_ok.
    intro E. unfold p_number, bind, many in E. destruct (run a_digit w) as [[|d ds] w1] eqn:R; [discriminate|].
    apply run_ok in R as (-> & Hd & _). pose proof (Forall_inv Hd) as Hd0. destruct w1 as [|c w1]; [discriminate|].
    destruct (Z.eqb c 46) eqn:C.
    - apply Z.eqb_eq in C. subst. destruct (run a_digit w1) as [fs w2] eqn:R. apply run_ok in R as (-> & Hf & _).
      destruct (assoc fractions _) as [f|] eqn:A; [|discriminate]. injection E as <- <-.
      exists d, (ds ++ [46]%Z ++ fs). split; [cbn; rewrite <- app_assoc; reflexivity|]. split; [auto|]. left. exists f.
      split; [reflexivity|]. apply (fl_intro digit scan_float (d :: ds) fs sign f); try (apply a_digits_digits; assumption).
      apply fractions_ok. apply assoc_in. exact A.
    - destruct (negb (Z.eqb d 48) || _) eqn:D; [|discriminate]. injection E as <- <-.
      exists d, ds. split; [reflexivity|]. split; [auto|]. right. exists (decimal_value (d :: ds)). split; [destruct (String.eqb sign ""); reflexivity|].
      constructor; [apply a_digits_decimals; exact Hd|]. apply orb_prop in D as [D|D].
      + apply negb_true_iff, Z.eqb_neq in D. auto.
      + destruct ds; [auto|discriminate].
  Qed.
  Definition p_int : parser Z :=
    bind (many a_digit) (fun ds => if Z.eqb (machine_value ds) (-1) then stop else give (machine_value ds)).
  Lemma sound_int : sound p_int (fun z u => number u z).
  Proof.
    intros w x r E. unfold p_int, bind, many in E. destruct (run a_digit w) as [ds w1] eqn:R.
    apply run_ok in R as (-> & Hd & _). destruct (Z.eqb (machine_value ds) (-1)) eqn:M; [discriminate|]. injection E as <- <-.
    exists ds. split; [reflexivity|]. split; [apply a_digits_decimals; exact Hd|]. apply Z.eqb_neq in M. auto.
  Qed.

  (** arguments, the list of arguments up to the closing parenthesis, functions *)
  Definition p_arg_of (pf : parser fmr) : parser arg := look (fun c =>
    if Z.eqb c 64 then bind (char 64%Z) (fun _ => give (Arg "context" (VStr "@")))
    else if Z.eqb c 36 then bind (char 36%Z) (fun _ => bind p_int (fun z => give (Arg "index" (VIdx z))))
    else if Z.eqb c 34 then bind p_literal (fun ft => give (Arg "string" (VStr (snd ft))))
    else if Z.eqb c 45 then bind (char 45%Z) (fun _ => p_number "-")
    else if a_digit c then p_number ""
    else bind pf (fun f => give (Arg "func" (VFunc f)))).
  Fixpoint p_args_of (pa : parser arg) (fuel : nat) : parser (list arg) :=
    match fuel with
    | O => stop
    | S n => bind blanks (fun _ => bind pa (fun a => bind blanks (fun _ => look (fun c =>
               if Z.eqb c 44 then bind (char 44%Z) (fun _ => bind (p_args_of pa n) (fun l => give (a :: l)))
               else give [a]))))
    end.
  Fixpoint p_fmr (fuel : nat) : parser fmr :=
    match fuel with
    | O => stop
    | S n => bind p_func_name (fun fn => bind blanks (fun _ => bind (char 40%Z) (fun _ =>
               bind (p_args_of (p_arg_of (p_fmr n)) 50) (fun l => bind (char 41%Z) (fun _ => give (FMR (encode fn) l))))))
    end.

  Lemma sound_arg_of pf : sound pf w_fmr' -> sound (p_arg_of pf) w_arg'.
  Proof using letters digits_ fractions_ok.
    intros HF w x r E. apply look_some in E as (c & w' & -> & E).
    destruct (Z.eqb c 64).
    { apply bind_some in E as (? & w1 & E1 & E). apply sound_char in E1 as (? & -> & ->). apply give_some in E as (-> & ->).
      eexists; split; [reflexivity|]. constructor. }
    destruct (Z.eqb c 36).
    { apply bind_some in E as (? & w1 & E1 & E). apply sound_char in E1 as (? & -> & ->).
      apply bind_some in E as (z & w2 & E1 & E). apply sound_int in E1 as (u & -> & Hu). apply give_some in E as (-> & ->).
      exists ([36]%Z ++ u). split; [reflexivity|]. constructor. exact Hu. }
    destruct (Z.eqb c 34).
    { apply bind_some in E as (ft & w1 & E1 & E). apply sound_literal in E1 as (u & -> & Hu). apply give_some in E as (-> & ->).
      exists u. split; [reflexivity|]. econstructor. exact Hu. }
    destruct (Z.eqb c 45).
    { apply bind_some in E as (? & w1 & E1 & E). apply sound_char in E1 as (? & -> & ->).
      apply p_number_ok in E as (d & ds & -> & Hd & [(f & -> & Hf)|(z & -> & Hz)]);
        (exists ([45]%Z ++ d :: ds); split; [reflexivity|]); [apply wa_negative_float|apply (wa_negative _ _ _ _ z)]; assumption. }
    destruct (a_digit c).
    { apply p_number_ok in E as (d & ds & -> & Hd & [(f & -> & Hf)|(z & -> & Hz)]);
        (exists (d :: ds); split; [reflexivity|]); [apply wa_float|apply (wa_int _ _ _ _ z)]; assumption. }
    apply bind_some in E as (f & w1 & E1 & E). apply HF in E1 as (u & -> & Hu). apply give_some in E as (-> & ->).
    exists u. split; [reflexivity|]. constructor. exact Hu.
  Qed.
  Lemma sound_args_of pa : sound pa w_arg' -> forall fuel, sound (p_args_of pa fuel) w_args'.
  Proof.
    intros HA. induction fuel as [|n IH]; intros w x r E; [discriminate|]. cbn [p_args_of] in E.
    apply bind_some in E as (? & w1 & E1 & E). apply sound_blanks in E1 as (sp1 & -> & Hsp1).
    apply bind_some in E as (a & w2 & E1 & E). apply HA in E1 as (ua & -> & Ha).
    apply bind_some in E as (? & w3 & E1 & E). apply sound_blanks in E1 as (sp2 & -> & Hsp2).
    apply look_some in E as (c & w' & -> & E). destruct (Z.eqb c 44).
    - apply bind_some in E as (? & w4 & E1 & E). apply sound_char in E1 as (? & -> & ->).
      apply bind_some in E as (l & w5 & E1 & E). apply IH in E1 as (u & -> & Hu). apply give_some in E as (-> & ->).
      exists (sp1 ++ ua ++ sp2 ++ [44]%Z ++ u). split; [rewrite <- !app_assoc; reflexivity|]. constructor; assumption.
    - apply give_some in E as (-> & ->). exists (sp1 ++ ua ++ sp2). split; [rewrite <- !app_assoc; reflexivity|]. constructor; assumption.
  Qed.
  Lemma sound_fmr fuel : sound (p_fmr fuel) w_fmr'.
  Proof using letters digits_ fractions_ok.
    induction fuel as [|n IH]; intros w x r E; [discriminate|]. cbn [p_fmr] in E.
    apply bind_some in E as (fn & w1 & E1 & E). apply sound_func_name in E1 as (? & -> & <- & Hfn).
    apply bind_some in E as (? & w2 & E1 & E). apply sound_blanks in E1 as (sp & -> & Hsp).
    apply bind_some in E as (? & w3 & E1 & E). apply sound_char in E1 as (? & -> & ->).
    apply bind_some in E as (l & w4 & E1 & E). apply (sound_args_of _ (sound_arg_of _ IH)) in E1 as (u & -> & Hu).
    apply bind_some in E as (? & w5 & E1 & E). apply sound_char in E1 as (? & -> & ->). apply give_some in E as (-> & ->).
    exists (fn ++ sp ++ [40]%Z ++ u ++ [41]%Z). split; [rewrite <- !app_assoc; reflexivity|]. constructor; assumption.
  Qed.

  (** terms *)
  Definition p_range : parser meta := look (fun c =>
    if Z.eqb c 123 then
      bind (char 123%Z) (fun _ => bind blanks (fun _ => bind p_int (fun lo => bind blanks (fun _ => bind (char 44%Z) (fun _ =>
      bind blanks (fun _ => bind p_int (fun hi => bind blanks (fun _ => bind (char 125%Z) (fun _ =>
      if (lo <=? hi)%Z then give (MMap (Some lo) (Some hi)) else stop)))))))))
    else give MNil).
  Lemma sound_range : sound p_range w_range.
  Proof.
    intros w x r E. apply look_some in E as (c & w' & -> & E). destruct (Z.eqb c 123).
    - apply bind_some in E as (? & w1 & E1 & E). apply sound_char in E1 as (? & -> & ->).
      apply bind_some in E as (? & w2 & E1 & E). apply sound_blanks in E1 as (sp1 & -> & H1).
      apply bind_some in E as (lo & w3 & E1 & E). apply sound_int in E1 as (ds & -> & Hlo).
      apply bind_some in E as (? & w4 & E1 & E). apply sound_blanks in E1 as (sp2 & -> & H2).
      apply bind_some in E as (? & w5 & E1 & E). apply sound_char in E1 as (? & -> & ->).
      apply bind_some in E as (? & w6 & E1 & E). apply sound_blanks in E1 as (sp3 & -> & H3).
      apply bind_some in E as (hi & w7 & E1 & E). apply sound_int in E1 as (ds' & -> & Hhi).
      apply bind_some in E as (? & w8 & E1 & E). apply sound_blanks in E1 as (sp4 & -> & H4).
      apply bind_some in E as (? & w9 & E1 & E). apply sound_char in E1 as (? & -> & ->).
      destruct (lo <=? hi)%Z eqn:L; [|discriminate]. apply Z.leb_le in L. apply give_some in E as (-> & ->).
      exists ([123]%Z ++ sp1 ++ ds ++ sp2 ++ [44]%Z ++ sp3 ++ ds' ++ sp4 ++ [125]%Z).
      split; [rewrite <- !app_assoc; reflexivity|]. constructor; assumption.
    - apply give_some in E as (-> & ->). exists []. split; [reflexivity|constructor].
  Qed.
  Fixpoint word (cs : list rune) : parser unit :=
    match cs with [] => give tt | c :: cs' => bind (char c) (fun _ => word cs') end.
  Lemma sound_word cs : sound (word cs) (fun _ u => u = cs).
  Proof.
    induction cs as [|c cs IH]; intros w x r E; cbn [word] in E.
    - apply give_some in E as (_ & ->). exists []. auto.
    - apply bind_some in E as (? & w1 & E1 & E). apply sound_char in E1 as (? & -> & ->). apply IH in E as (? & -> & ->).
      exists (c :: cs). auto.
  Qed.
  Definition p_term : parser (term * list (string * string)) := look (fun c =>
    if Z.eqb c 60 then
      bind (char 60%Z) (fun _ => bind p_name (fun x => bind (char 62%Z) (fun _ => give (mkTerm (encode x) TNonterminal MNil, []))))
    else if Z.eqb c 34 then
      bind p_literal (fun ft => give (mkTerm (snd ft) TTerminal (if String.eqb (fst ft) "" then MNil else MStr (fst ft)), []))
    else if Z.eqb c 40 then
      bind (char 40%Z) (fun _ => bind blanks (fun _ => look (fun c =>
        if Z.eqb c 97 then
          bind (word [97; 110; 121]%Z) (fun _ => bind blanks (fun _ => bind p_range (fun m => bind blanks (fun _ => bind (char 41%Z) (fun _ =>
          give (mkTerm "any" TAny m, []))))))
        else
          bind (word [108; 105; 115; 116]%Z) (fun _ => bind blanks (fun _ => bind (char 60%Z) (fun _ => bind p_name (fun x =>
          bind (char 62%Z) (fun _ => bind blanks (fun _ => bind p_range (fun m => bind blanks (fun _ => bind (char 41%Z) (fun _ =>
          give (mkTerm (encode x) TList m, []))))))))))))) 
    else if Z.eqb c 96 then
      bind (char 96%Z) (fun _ => bind blanks (fun _ => bind (many (fun c => negb (Z.eqb c 96))) (fun cs => bind (char 96%Z) (fun _ =>
        match cs with
        | [] => stop
        | c :: _ => if is_space c then stop else
            match assoc patterns (encode cs) with
            | Some h => give (mkTerm h TNonterminal MNil, [(h, encode cs)])
            | None => stop
            end
        end))))
    else stop).
  Notation w_term' := (w_term letter digit regexp_ok md5).
  Notation w_terms' := (w_terms letter digit regexp_ok md5).
  Lemma sound_term : sound p_term (fun tr u => w_term' (fst tr) (snd tr) u).
  Proof using letters digits_ patterns_ok.
    intros w x r E. apply look_some in E as (c & w' & -> & E).
    destruct (Z.eqb c 60).
    { apply bind_some in E as (? & w1 & E1 & E). apply sound_char in E1 as (? & -> & ->).
      apply bind_some in E as (n & w2 & E1 & E). apply sound_name in E1 as (? & -> & <- & Hn).
      apply bind_some in E as (? & w3 & E1 & E). apply sound_char in E1 as (? & -> & ->). apply give_some in E as (-> & ->).
      exists ([60]%Z ++ n ++ [62]%Z). split; [rewrite <- !app_assoc; reflexivity|]. constructor; assumption. }
    destruct (Z.eqb c 34).
    { apply bind_some in E as ([fl t] & w1 & E1 & E). apply sound_literal in E1 as (u & -> & Hu). apply give_some in E as (-> & ->).
      exists u. split; [reflexivity|]. cbn [fst snd] in *. destruct (String.eqb_spec fl "").
      - subst. constructor. exact Hu.
      - apply wt_flagged; assumption. }
    destruct (Z.eqb c 40).
    { apply bind_some in E as (? & w1 & E1 & E). apply sound_char in E1 as (? & -> & ->).
      apply bind_some in E as (? & w2 & E1 & E). apply sound_blanks in E1 as (sp1 & -> & H1).
      apply look_some in E as (c' & w3 & -> & E). destruct (Z.eqb c' 97).
      - apply bind_some in E as (? & w4 & E1 & E). apply sound_word in E1 as (? & -> & ->).
        apply bind_some in E as (? & w5 & E1 & E). apply sound_blanks in E1 as (sp2 & -> & H2).
        apply bind_some in E as (m & w6 & E1 & E). apply sound_range in E1 as (u & -> & Hu).
        apply bind_some in E as (? & w7 & E1 & E). apply sound_blanks in E1 as (sp3 & -> & H3).
        apply bind_some in E as (? & w8 & E1 & E). apply sound_char in E1 as (? & -> & ->). apply give_some in E as (-> & ->).
        exists ([40]%Z ++ sp1 ++ [97; 110; 121]%Z ++ sp2 ++ u ++ sp3 ++ [41]%Z).
        split; [rewrite <- !app_assoc; reflexivity|]. constructor; assumption.
      - apply bind_some in E as (? & w4 & E1 & E). apply sound_word in E1 as (? & -> & ->).
        apply bind_some in E as (? & w5 & E1 & E). apply sound_blanks in E1 as (sp2 & -> & H2).
        apply bind_some in E as (? & w9 & E1 & E). apply sound_char in E1 as (? & -> & ->).
        apply bind_some in E as (n & w10 & E1 & E). apply sound_name in E1 as (? & -> & <- & Hn).
        apply bind_some in E as (? & w11 & E1 & E). apply sound_char in E1 as (? & -> & ->).
        apply bind_some in E as (? & w12 & E1 & E). apply sound_blanks in E1 as (sp4 & -> & H4).
        apply bind_some in E as (m & w6 & E1 & E). apply sound_range in E1 as (u & -> & Hu).
        apply bind_some in E as (? & w7 & E1 & E). apply sound_blanks in E1 as (sp3 & -> & H3).
        apply bind_some in E as (? & w8 & E1 & E). apply sound_char in E1 as (? & -> & ->). apply give_some in E as (-> & ->).
        exists ([40]%Z ++ sp1 ++ [108; 105; 115; 116]%Z ++ sp2 ++ [60]%Z ++ n ++ [62]%Z ++ sp4 ++ u ++ sp3 ++ [41]%Z).
        split; [rewrite <- !app_assoc; reflexivity|]. constructor; assumption. }
    destruct (Z.eqb c 96); [|discriminate].
    apply bind_some in E as (? & w1 & E1 & E). apply sound_char in E1 as (? & -> & ->).
    apply bind_some in E as (? & w2 & E1 & E). apply sound_blanks in E1 as (sp1 & -> & H1).
    apply bind_some in E as (cs & w3 & E1 & E). apply sound_many in E1 as (? & -> & <- & Hcs).
    apply bind_some in E as (? & w4 & E1 & E). apply sound_char in E1 as (? & -> & ->).
    destruct cs as [|c0 cs]; [discriminate|]. destruct (is_space c0) eqn:S0; [discriminate|].
    destruct (assoc patterns _) as [h|] eqn:A; [|discriminate]. apply give_some in E as (-> & ->).
    destruct (patterns_ok _ _ (assoc_in _ _ _ A)) as (P1 & P2 & P3).
    exists ([96]%Z ++ sp1 ++ (c0 :: cs) ++ [96]%Z). split; [rewrite <- !app_assoc; reflexivity|].
    apply wt_regexp; try assumption. intro I. rewrite Forall_forall in Hcs. specialize (Hcs _ I). discriminate.
  Qed.
  Definition opens (c : rune) : bool := Z.eqb c 60 || Z.eqb c 34 || Z.eqb c 40 || Z.eqb c 96.
  Fixpoint p_terms (fuel : nat) : parser (list term * list (string * string)) :=
    match fuel with
    | O => stop
    | S n => bind p_term (fun tr => bind gaps (fun _ => look (fun c =>
               if opens c then bind (p_terms n) (fun l => give (fst tr :: fst l, snd tr ++ snd l))
               else give ([fst tr], snd tr))))
    end.
  Lemma sound_terms fuel : sound (p_terms fuel) (fun tr u => w_terms' (fst tr) (snd tr) u).
  Proof using letters digits_ patterns_ok.
    induction fuel as [|n IH]; intros w x r E; [discriminate|]. cbn [p_terms] in E.
    apply bind_some in E as ([t re] & w1 & E1 & E). apply sound_term in E1 as (u & -> & Hu).
    apply bind_some in E as (? & w2 & E1 & E). apply sound_gaps in E1 as (g & -> & Hg).
    apply look_some in E as (c & w' & -> & E). destruct (opens c).
    - apply bind_some in E as ([l re'] & w3 & E1 & E). apply IH in E1 as (u' & -> & Hu'). apply give_some in E as (-> & ->).
      exists (u ++ g ++ u'). split; [rewrite <- !app_assoc; reflexivity|]. constructor; assumption.
    - apply give_some in E as (-> & ->). exists (u ++ g). split; [rewrite <- !app_assoc; reflexivity|]. constructor; assumption.
  Qed.
  Notation w_body' := (w_body letter digit scan_float regexp_ok md5).
  Notation w_bodies' := (w_bodies letter digit scan_float regexp_ok md5).
  Notation w_item' := (w_item letter digit scan_float regexp_ok md5).
  Notation w_items' := (w_items letter digit scan_float regexp_ok md5).
  Notation w_file' := (w_file letter digit scan_float regexp_ok md5).
  Definition p_body : parser (rulebody * list (string * string)) :=
    bind (p_terms 50) (fun tr => look (fun c =>
      if Z.eqb c 123 then bind (char 123%Z) (fun _ => bind blanks (fun _ => bind (p_fmr 9) (fun f => bind blanks (fun _ =>
        bind (char 125%Z) (fun _ => bind gaps (fun _ => give (mkRb (fst tr) (Some f), snd tr)))))))
      else give (mkRb (fst tr) None, snd tr))).
  Lemma sound_body : sound p_body (fun br u => w_body' (fst br) (snd br) u).
  Proof using letters digits_ patterns_ok fractions_ok.
    intros w x r E. unfold p_body in E.
    apply bind_some in E as ([ts re] & w1 & E1 & E). apply sound_terms in E1 as (u & -> & Hu).
    apply look_some in E as (c & w' & -> & E). destruct (Z.eqb c 123).
    - apply bind_some in E as (? & w2 & E1 & E). apply sound_char in E1 as (? & -> & ->).
      apply bind_some in E as (? & w3 & E1 & E). apply sound_blanks in E1 as (sp1 & -> & H1).
      apply bind_some in E as (f & w4 & E1 & E). apply sound_fmr in E1 as (uf & -> & Hf).
      apply bind_some in E as (? & w5 & E1 & E). apply sound_blanks in E1 as (sp2 & -> & H2).
      apply bind_some in E as (? & w6 & E1 & E). apply sound_char in E1 as (? & -> & ->).
      apply bind_some in E as (? & w7 & E1 & E). apply sound_gaps in E1 as (g & -> & Hg). apply give_some in E as (-> & ->).
      exists (u ++ [123]%Z ++ sp1 ++ uf ++ sp2 ++ [125]%Z ++ g). split; [rewrite <- !app_assoc; reflexivity|]. constructor; assumption.
    - apply give_some in E as (-> & ->). exists u. split; [reflexivity|]. constructor; assumption.
  Qed.
  Fixpoint p_bodies (fuel : nat) : parser (list rulebody * list (string * string)) :=
    match fuel with
    | O => stop
    | S n => bind p_body (fun br => look (fun c =>
               if Z.eqb c 124 then bind (char 124%Z) (fun _ => bind gaps (fun _ => bind (p_bodies n) (fun l => give (fst br :: fst l, snd br ++ snd l))))
               else give ([fst br], snd br)))
    end.
  Lemma sound_bodies fuel : sound (p_bodies fuel) (fun br u => w_bodies' (fst br) (snd br) u).
  Proof using letters digits_ patterns_ok fractions_ok.
    induction fuel as [|n IH]; intros w x r E; [discriminate|]. cbn [p_bodies] in E.
    apply bind_some in E as ([b re] & w1 & E1 & E). apply sound_body in E1 as (u & -> & Hu).
    apply look_some in E as (c & w' & -> & E). destruct (Z.eqb c 124).
    - apply bind_some in E as (? & w2 & E1 & E). apply sound_char in E1 as (? & -> & ->).
      apply bind_some in E as (? & w3 & E1 & E). apply sound_gaps in E1 as (g & -> & Hg).
      apply bind_some in E as ([l re'] & w4 & E1 & E). apply IH in E1 as (u' & -> & Hu'). apply give_some in E as (-> & ->).
      exists (u ++ [124]%Z ++ g ++ u'). split; [rewrite <- !app_assoc; reflexivity|]. constructor; assumption.
    - apply give_some in E as (-> & ->). exists u. split; [reflexivity|]. constructor; assumption.
  Qed.
  Definition p_item : parser (item * list (string * string)) := look (fun c =>
    bind (char c) (fun _ => bind p_name (fun x => bind (char (if Z.eqb c 60 then 62 else 93)%Z) (fun _ => bind gaps (fun _ =>
    bind (char 61%Z) (fun _ => bind gaps (fun _ => bind (p_bodies 200) (fun l => bind (char 59%Z) (fun _ =>
    if Z.eqb c 60 then give (mkItem false (encode x) (fst l), snd l)
    else if Z.eqb c 91 then give (mkItem true (encode x) (fst l), snd l) else stop))))))))).
  Lemma sound_item : sound p_item (fun ir u => w_item' (fst ir) (snd ir) u).
  Proof using letters digits_ patterns_ok fractions_ok.
    intros w x r E. apply look_some in E as (c & w' & -> & E).
    apply bind_some in E as (? & w1 & E1 & E). apply sound_char in E1 as (? & -> & ->).
    apply bind_some in E as (n & w2 & E1 & E). apply sound_name in E1 as (? & -> & <- & Hn).
    apply bind_some in E as (? & w3 & E1 & E). apply sound_char in E1 as (? & -> & ->).
    apply bind_some in E as (? & w4 & E1 & E). apply sound_gaps in E1 as (g1 & -> & Hg1).
    apply bind_some in E as (? & w5 & E1 & E). apply sound_char in E1 as (? & -> & ->).
    apply bind_some in E as (? & w6 & E1 & E). apply sound_gaps in E1 as (g2 & -> & Hg2).
    apply bind_some in E as ([l re] & w7 & E1 & E). apply sound_bodies in E1 as (u & -> & Hu).
    apply bind_some in E as (? & w8 & E1 & E). apply sound_char in E1 as (? & -> & ->).
    destruct (Z.eqb c 60) eqn:C.
    - apply Z.eqb_eq in C. subst. apply give_some in E as (-> & ->).
      exists ([60]%Z ++ n ++ [62]%Z ++ g1 ++ [61]%Z ++ g2 ++ u ++ [59]%Z). split; [rewrite <- !app_assoc; reflexivity|]. constructor; assumption.
    - destruct (Z.eqb c 91) eqn:C2; [|discriminate]. apply Z.eqb_eq in C2. subst. apply give_some in E as (-> & ->).
      exists ([91]%Z ++ n ++ [93]%Z ++ g1 ++ [61]%Z ++ g2 ++ u ++ [59]%Z). split; [rewrite <- !app_assoc; reflexivity|]. constructor; assumption.
  Qed.
  Fixpoint p_items (fuel : nat) (w : list rune) : option (list item * list (string * string)) :=
    match fuel with
    | O => None
    | S n =>
        let w1 := p_gap (length w) w in
        match w1 with
        | [] => Some ([], [])
        | _ => match p_item w1 with
               | Some (ir, w2) => match p_items n w2 with
                                  | Some (l, re) => Some (fst ir :: l, snd ir ++ re)
                                  | None => None
                                  end
               | None => None
               end
        end
    end.
  Lemma sound_items fuel : forall w its re, p_items fuel w = Some (its, re) -> w_items' its re w.
  Proof using letters digits_ patterns_ok fractions_ok.
    induction fuel as [|n IH]; intros w its re E; [discriminate|]. cbn [p_items] in E. cbv zeta in E.
    destruct (p_gap_ok (length w) w) as (g & Eg & Hg). destruct (p_gap (length w) w) as [|c w1] eqn:P.
    - injection E as <- <-. rewrite app_nil_r in Eg. subst. constructor. exact Hg.
    - destruct (p_item (c :: w1)) as [[[it re1] w2]|] eqn:I; [|discriminate].
      apply sound_item in I as (u & Eu & Hu). destruct (p_items n w2) as [[l re']|] eqn:IS; [|discriminate].
      injection E as <- <-. rewrite Eg, Eu. constructor; [exact Hg|exact Hu|]. apply IH. exact IS.
  Qed.
  Fixpoint p_file (fuel : nat) (w : list rune) : option (list string * list item * list (string * string)) :=
    match fuel with
    | O => None
    | S n =>
        let w1 := p_gap (length w) w in
        match w1 with
        | c :: w2 =>
            if Z.eqb c 35 then
              match bind blanks (fun _ => bind (word [105; 110; 99; 108; 117; 100; 101]%Z) (fun _ => bind blanks (fun _ => p_literal))) w2 with
              | Some (ft, w3) => match p_file n w3 with
                                 | Some (ps, its, re) => Some (snd ft :: ps, its, re)
                                 | None => None
                                 end
              | None => None
              end
            else match p_items 200 w with Some (its, re) => Some ([], its, re) | None => None end
        | [] => match p_items 200 w with Some (its, re) => Some ([], its, re) | None => None end
        end
    end.
  Lemma sound_file fuel : forall w ps its re, p_file fuel w = Some (ps, its, re) -> w_file' ps its re w.
  Proof using letters digits_ patterns_ok fractions_ok.
    assert (K : forall w ps its re, match p_items 200 w with Some (its, re) => Some ([], its, re) | None => None end = Some (ps, its, re) ->
                w_file' ps its re w).
    { intros w ps its re E. destruct (p_items 200 w) as [[its' re']|] eqn:I; [|discriminate]. injection E as <- <- <-.
      constructor. exact (sound_items _ _ _ _ I). }
    induction fuel as [|n IH]; intros w ps its re E; [discriminate|]. cbn [p_file] in E. cbv zeta in E.
    destruct (p_gap_ok (length w) w) as (g & Eg & Hg). destruct (p_gap (length w) w) as [|c w2] eqn:P; [apply K; exact E|].
    destruct (Z.eqb c 35) eqn:C; [|apply K; exact E]. apply Z.eqb_eq in C. subst c. rewrite Eg.
    destruct (bind blanks _ w2) as [[[fl t] w3]|] eqn:B; [|discriminate].
    apply bind_some in B as (? & w4 & B1 & B). apply sound_blanks in B1 as (sp1 & -> & H1).
    apply bind_some in B as (? & w5 & B1 & B). apply sound_word in B1 as (? & -> & ->).
    apply bind_some in B as (? & w6 & B1 & B). apply sound_blanks in B1 as (sp2 & -> & H2).
    apply sound_literal in B as (u & -> & Hu).
    destruct (p_file n w3) as [[[ps' its'] re']|] eqn:F; [|discriminate]. injection E as <- <- <-.
    refine (wfile_include _ _ _ _ _ g sp1 sp2 fl t u ps' its' re' w3 Hg H1 H2 Hu (IH _ _ _ _ F)).
  Qed.
End Recognizer.
