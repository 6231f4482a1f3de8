(** From the reader's functions to whole grammar texts: the maps a text denotes,
    the #include directives and [grammar_from_string]. *)
From Coq Require Import Lia.
From Verif Require Import Base ModelTypes ModelText ModelEarley ModelReader ModelGrammar ProofUtf8
  SpecNotation ProofReader ProofReaderSafe ProofReaderBack.

(** ** maps *)
Lemma lookup_N_put {A} (m : list (N * A)) k a k' :
  lookup_N (put_N m k a) k' = if N.eqb k k' then Some a else lookup_N m k'.
Proof.
  induction m as [|[k0 a0] m IH]; cbn [put_N lookup_N]; [reflexivity|].
  destruct (N.eqb k0 k) eqn:E0.
  - apply N.eqb_eq in E0. subst k0. cbn [lookup_N]. destruct (N.eqb k k'); reflexivity.
  - cbn [lookup_N]. rewrite IH. destruct (N.eqb k0 k') eqn:E1; [|reflexivity].
    apply N.eqb_eq in E1. subst k0. rewrite N.eqb_sym in E0. rewrite E0. reflexivity.
Qed.
Lemma put_N_keys {A} (m : list (N * A)) k a k' :
  In k' (map fst (put_N m k a)) -> k' = k \/ In k' (map fst m).
Proof.
  induction m as [|[k0 a0] m IH]; cbn [put_N map fst In]; [intros [<-|[]]; auto|].
  destruct (N.eqb k0 k) eqn:E0; cbn [map fst In].
  - intros [<-|H]; auto.
  - intros [<-|H]; auto. destruct (IH H); auto.
Qed.
Lemma put_N_nodup {A} (m : list (N * A)) k a : NoDup (map fst m) -> NoDup (map fst (put_N m k a)).
Proof.
  induction m as [|[k0 a0] m IH]; cbn [put_N map fst]; intros H; [repeat constructor; auto|].
  inversion H; subst. destruct (N.eqb k0 k) eqn:E0; cbn [map fst].
  - apply N.eqb_eq in E0. subst. constructor; auto.
  - constructor; auto. intros Hin. apply put_N_keys in Hin. destruct Hin as [->|Hin]; [|auto].
    rewrite N.eqb_refl in E0. discriminate.
Qed.
Lemma lookup_put {A} (m : list (string * A)) k a k' :
  lookup (put m k a) k' = if String.eqb k k' then Some a else lookup m k'.
Proof.
  induction m as [|[k0 a0] m IH]; cbn [put lookup]; [reflexivity|].
  destruct (String.eqb k0 k) eqn:E0.
  - apply String.eqb_eq in E0. subst k0. cbn [lookup]. destruct (String.eqb k k'); reflexivity.
  - cbn [lookup]. rewrite IH. destruct (String.eqb k0 k') eqn:E1; [|reflexivity].
    apply String.eqb_eq in E1. subst k0. rewrite String.eqb_sym in E0. rewrite E0. reflexivity.
Qed.
Lemma put_keys {A} (m : list (string * A)) k a k' :
  In k' (map fst (put m k a)) <-> k' = k \/ In k' (map fst m).
Proof.
  induction m as [|[k0 a0] m IH]; cbn [put map fst In]; [intuition|].
  destruct (String.eqb k0 k) eqn:E0; cbn [map fst In].
  - apply String.eqb_eq in E0. subst. intuition.
  - rewrite IH. intuition.
Qed.
Lemma put_nodup {A} (m : list (string * A)) k a : NoDup (map fst m) -> NoDup (map fst (put m k a)).
Proof.
  induction m as [|[k0 a0] m IH]; cbn [put map fst]; intros H; [repeat constructor; auto|].
  inversion H; subst. destruct (String.eqb k0 k) eqn:E0; cbn [map fst].
  - apply String.eqb_eq in E0. subst. constructor; auto.
  - constructor; auto. intros Hin. apply put_keys in Hin. destruct Hin as [->|Hin]; [|auto].
    rewrite String.eqb_refl in E0. discriminate.
Qed.

Lemma find_app {A} (p : A -> bool) a b :
  find p (a ++ b) = match find p a with Some x => Some x | None => find p b end.
Proof. induction a as [|x a IH]; cbn [find app]; [reflexivity|]. destruct (p x); auto. Qed.

Section Denote.
  Variable hash : rulebody -> N.

  Lemma put_bodies_lookup bs : forall m h,
    lookup_N (put_bodies hash m bs) h
    = match find (fun b => N.eqb (hash b) h) (rev bs) with Some b => Some b | None => lookup_N m h end.
  Proof.
    induction bs as [|b bs IH]; intros m h; [reflexivity|].
    unfold put_bodies. cbn [fold_left rev]. fold (put_bodies hash (put_N m (hash b) b) bs).
    rewrite IH, find_app. destruct (find _ (rev bs)); [reflexivity|]. rewrite lookup_N_put. cbn [find].
    destruct (N.eqb (hash b) h); reflexivity.
  Qed.
  Lemma put_bodies_nodup bs : forall m, NoDup (map fst m) -> NoDup (map fst (put_bodies hash m bs)).
  Proof.
    induction bs as [|b bs IH]; intros m H; [exact H|]. unfold put_bodies. cbn [fold_left].
    apply IH. apply put_N_nodup. exact H.
  Qed.
  Lemma merge_lookup (l : list (N * rulebody)) : NoDup (map fst l) -> forall m h,
    lookup_N (fold_left (fun m kb => put_N m (fst kb) (snd kb)) l m) h
    = match lookup_N l h with Some b => Some b | None => lookup_N m h end.
  Proof.
    induction l as [|[k b] l IH]; intros Hn m h; [reflexivity|]. cbn [fold_left fst snd lookup_N].
    inversion Hn; subst. rewrite IH by assumption. rewrite lookup_N_put.
    destruct (N.eqb k h) eqn:E; [|reflexivity]. apply N.eqb_eq in E. subst h.
    assert (L : lookup_N l k = None).
    { clear - H1. induction l as [|[k' b'] l IH]; [reflexivity|]. cbn [lookup_N map fst In] in *.
      destruct (N.eqb k' k) eqn:E; [apply N.eqb_eq in E; subst; tauto|]. apply IH. tauto. }
    rewrite L. reflexivity.
  Qed.
  Lemma merge_nodup (l : list (N * rulebody)) : forall m, NoDup (map fst m) ->
    NoDup (map fst (fold_left (fun m kb => put_N m (fst kb) (snd kb)) l m)).
  Proof. induction l as [|kb l IH]; intros m H; [exact H|]. cbn [fold_left]. apply IH, put_N_nodup, H. Qed.

  Lemma written_snoc its it frame x : written (its ++ [it]) frame x
    = written its frame x ++ (if Bool.eqb (it_frame it) frame && String.eqb (it_name it) x then it_bodies it else []).
  Proof. unfold written. rewrite flat_map_app. cbn [flat_map]. rewrite app_nil_r. reflexivity. Qed.

  Lemma add_items_denotes frame its : Forall (fun it => it_bodies it <> []) its ->
    denotes hash its frame (add_items hash frame [] its).
  Proof.
    induction its as [|it its IH] using rev_ind; intros Hne.
    - split; [constructor|]. split; [reflexivity|]. intros x H. destruct (H eq_refl).
    - apply Forall_app in Hne. destruct Hne as [Hne Hit]. inversion Hit as [|? ? Hb _]; subst.
      destruct (IH Hne) as (D1 & D2 & D3). clear IH.
      unfold add_items. rewrite fold_left_app. cbn [fold_left].
      fold (add_items hash frame [] its). set (m := add_items hash frame [] its) in *.
      destruct (Bool.eqb (it_frame it) frame) eqn:Ef.
      2: { split; [exact D1|]. split; intros x; rewrite written_snoc, Ef; cbn [andb]; rewrite app_nil_r; auto. }
      unfold add_rule. cbn [item_rule r_name r_body].
      destruct (lookup m (it_name it)) as [r0|] eqn:L.
      + split; [apply put_nodup; exact D1|].
        assert (Hw : written its frame (it_name it) <> []).
        { intros E. rewrite (D2 _ E) in L. discriminate. }
        split; intros x; rewrite written_snoc, Ef, lookup_put; cbn [andb].
        * destruct (String.eqb (it_name it) x) eqn:Ex.
          -- intros E. apply app_eq_nil in E. destruct E as [_ E]. congruence.
          -- rewrite app_nil_r. apply D2.
        * destruct (String.eqb (it_name it) x) eqn:Ex.
          -- apply String.eqb_eq in Ex. subst x. intros _.
             destruct (D3 _ Hw) as (r9 & Lr & Nr & Hn & Hl). rewrite L in Lr. inversion Lr; subst r9.
             eexists. split; [reflexivity|]. cbn [r_name r_body]. split; [exact Nr|].
             split; [apply merge_nodup; exact Hn|]. intros h.
             rewrite merge_lookup by (apply put_bodies_nodup; constructor).
             rewrite put_bodies_lookup, Hl, rev_app_distr, find_app.
             destruct (find _ (rev (it_bodies it))); reflexivity.
          -- rewrite app_nil_r. apply D3.
      + split; [apply put_nodup; exact D1|].
        assert (Hw : written its frame (it_name it) = []).
        { destruct (written its frame (it_name it)) eqn:E; [reflexivity|].
          destruct (D3 (it_name it)) as (r9 & Lr & _); [rewrite E; discriminate|]. congruence. }
        split; intros x; rewrite written_snoc, Ef, lookup_put; cbn [andb].
        * destruct (String.eqb (it_name it) x) eqn:Ex.
          -- intros E. apply app_eq_nil in E. destruct E as [_ E]. congruence.
          -- rewrite app_nil_r. apply D2.
        * destruct (String.eqb (it_name it) x) eqn:Ex.
          -- apply String.eqb_eq in Ex. subst x. intros _. rewrite Hw. cbn [app].
             eexists. split; [reflexivity|]. cbn [item_rule r_name r_body]. split; [reflexivity|].
             split; [apply put_bodies_nodup; constructor|]. intros h. rewrite put_bodies_lookup.
             destruct (find _ _); reflexivity.
          -- rewrite app_nil_r. apply D3.
  Qed.

  Lemma put_all_denotes l : denotes_regexps l (put_all [] l).
  Proof.
    assert (K : forall m, NoDup (map fst m) -> NoDup (map fst (put_all m l)) /\
      forall h, lookup (put_all m l) h = match find (fun kv => String.eqb (fst kv) h) (rev l) with
        Some kv => Some (snd kv) | None => lookup m h end).
    { induction l as [|[k v] l IH]; intros m Hm; [auto|]. unfold put_all. cbn [fold_left rev fst snd].
      destruct (IH (put m k v) (put_nodup _ _ _ Hm)) as [K1 K2]. split; [exact K1|]. intros h.
      unfold put_all in K2. rewrite K2, find_app, lookup_put. cbn [find fst snd].
      destruct (find _ (rev l)); [reflexivity|]. destruct (String.eqb k h); reflexivity. }
    destruct (K [] ltac:(constructor)) as [K1 K2]. split; [exact K1|]. intros h. rewrite K2. cbn [lookup].
    destruct (find _ (rev l)); reflexivity.
  Qed.
End Denote.

(** ** #include directives: the calls they make *)
Section Loads.
  Context {F G : Type}.
  Variable load : F -> string -> res (option (list G * list (string * string)) * F).
  Fixpoint load_all (fs : F) (gs : list G) (re : list (string * string)) (ps : list string)
    : res ((list G * F) * list (string * string)) :=
    match ps with
    | [] => Ret ((gs, fs), re)
    | p :: ps' =>
        ' (ig, fs') <- load fs p ;;
        match ig with
        | None => load_all fs' gs re ps'
        | Some (l, r) => load_all fs' (gs ++ l) (put_all re r) ps'
        end
    end.
End Loads.

Section Main.
  Variables letter_hi digit_hi : rune -> bool.
  Variable scan_float : string -> res bigf.
  Variable regexp_ok : string -> bool.
  Variable md5 : string -> string.
  Variable hash : rulebody -> N.
  Hypothesis Htab : unicode_tables letter_hi digit_hi.
  Variable all : list rune.
  Hypothesis Hall : Forall good all.
  Variable fuel : nat.
  Hypothesis Hfuel : length all < fuel.

  Local Notation letter := (is_letter letter_hi).
  Local Notation digit := (is_digit digit_hi).
  Local Notation input := (encode all).
  Local Notation At := (At all).
  Local Notation w_items' := (w_items letter digit scan_float regexp_ok md5).
  Local Notation w_file' := (w_file letter digit scan_float regexp_ok md5).

  Lemma items_gap its l g w : gap g -> w_items' its l w -> w_items' its l (g ++ w).
  Proof.
    intros Hg [g' Hg'|g' it l1 w1 its' l2 w2 Hg' Hit Hits].
    - apply wis_end. apply gap_app; assumption.
    - rewrite app_assoc. apply wis_item; auto. apply gap_app; assumption.
  Qed.
  Lemma file_gap ps its l g w : gap g -> w_file' ps its l w -> w_file' ps its l (g ++ w).
  Proof.
    intros Hg [its' l' w' Hi|g' sp1 sp2 fl p w' ps' its' l' w'' Hg' H1 H2 Hl Hf].
    - apply wfile_rules. apply items_gap; assumption.
    - rewrite app_assoc. apply wfile_include with (fl := fl); auto. apply gap_app; assumption.
  Qed.

  Section WithLoad.
    Context {F G : Type}.
    Variable load : F -> string -> res (option (list G * list (string * string)) * F).

    Lemma at_re s rest re re' : At s rest re -> At (mkRd (rd_pos s) (rd_width s) re') rest re'.
    Proof. intros [H _]. split; [exact H|reflexivity]. Qed.

    Lemma includes_at ps its l w : w_file' ps its l w -> forall n fs gs s re,
      At s w re -> length w < n ->
      match load_all load fs gs re ps with
      | Ret (gf, re') => exists s' w', includes_loop input letter_hi digit_hi fuel load n fs gs s = Ret (gf, s')
                          /\ w_items' its l w' /\ At s' w' re'
      | Err => includes_loop input letter_hi digit_hi fuel load n fs gs s = Err
      | Panic => includes_loop input letter_hi digit_hi fuel load n fs gs s = Panic
      | Fuel => includes_loop input letter_hi digit_hi fuel load n fs gs s = Fuel
      end.
    Proof.
      induction 1 as [its l w Hi|g sp1 sp2 fl p w ps its l w' Hg H1 H2 Hl Hf IH]; intros n fs gs s re HA Hn;
        (destruct n as [|n]; [llia|]).
      - cbn [load_all includes_loop].
        destruct Hi as [g Hg | g it l w its l' w' Hg Hit Hits].
        + rewrite <- (app_nil_r g) in HA.
          destruct (comments_at all Hall fuel Hfuel g s [] re Hg ltac:(split; [reflexivity|discriminate]) HA) as (s1 & E1 & A1).
          rewrite E1. cbn [bind]. destruct (peek_at all Hall fuel Hfuel _ _ _ A1) as (s2 & E2 & A2). rewrite E2. cbn [bind hd].
          change (Z.eqb eof r_hash) with false. cbn [negb]. exists s2, []. split; [reflexivity|].
          split; [apply wis_end; exact gap_nil|exact A2].
        + destruct (item_head letter_hi digit_hi scan_float regexp_ok md5 _ _ _ Hit) as (G1 & G2).
          destruct (item_char_cases it) as (C1 & C2 & C3).
          destruct (comments_at all Hall fuel Hfuel g s (w ++ w') re Hg ltac:(rewrite (hd_app w _ G1), G2; exact C3) HA) as (s1 & E1 & A1).
          rewrite E1. cbn [bind]. destruct (peek_at all Hall fuel Hfuel _ _ _ A1) as (s2 & E2 & A2). rewrite E2. cbn [bind].
          rewrite (hd_app w _ G1), G2.
          replace (Z.eqb (item_char it) r_hash) with false by (unfold item_char; destruct (it_frame it); reflexivity).
          cbn [negb]. exists s2, (w ++ w'). split; [reflexivity|]. split; [|exact A2].
          change (w ++ w') with ([] ++ w ++ w'). apply wis_item; auto using gap_nil.
      - cbn [load_all includes_loop].
        destruct (comments_at all Hall fuel Hfuel g s (35%Z :: sp1 ++ [105; 110; 99; 108; 117; 100; 101]%Z ++ sp2 ++ w ++ w') re Hg
                    ltac:(split; [reflexivity|discriminate]) HA) as (s1 & E1 & A1).
        rewrite E1. cbn [bind]. destruct (peek_at all Hall fuel Hfuel _ _ _ A1) as (s2 & E2 & A2). rewrite E2. cbn [bind hd].
        change (Z.eqb 35 r_hash) with true. cbn [negb].
        destruct (skip_at all Hall fuel Hfuel _ _ _ _ A2) as (s3 & E3 & A3). rewrite E3.
        destruct (ws_at all Hall fuel Hfuel sp1 s3 ([105; 110; 99; 108; 117; 100; 101]%Z ++ sp2 ++ w ++ w') re H1 A3 eq_refl) as (s4 & E4 & A4).
        rewrite E4. cbn [bind].
        assert (Wq : exists w0, w = 34%Z :: w0) by (inversion Hl; subst; eexists; reflexivity).
        destruct Wq as (w0 & Ew).
        assert (Hh : nameb letter_hi digit_hi (hd eof (sp2 ++ w ++ w')) = false).
        { destruct H2 as [|x sp2 Hx H2]; [rewrite Ew; reflexivity|]. cbn [app hd].
          apply (space_not_name letter_hi digit_hi Htab). exact Hx. }
        destruct (text_at letter_hi digit_hi Htab all Hall fuel Hfuel [105; 110; 99; 108; 117; 100; 101]%Z s4 (sp2 ++ w ++ w') re
                    ltac:(split; [left; reflexivity|repeat constructor]) Hh A4) as (s5 & E5 & A5).
        rewrite E5. cbn [bind]. change (String.eqb (encode [105; 110; 99; 108; 117; 100; 101]%Z) "include") with true. cbn [negb].
        destruct (ws_at all Hall fuel Hfuel sp2 s5 (w ++ w') re H2 A5 ltac:(rewrite Ew; reflexivity)) as (s6 & E6 & A6).
        rewrite E6. cbn [bind].
        destruct (terminal_at letter_hi digit_hi Htab all Hall fuel Hfuel fl p w s6 w' re Hl A6) as (s7 & E7 & A7).
        rewrite E7. cbn [bind].
        assert (Hn' : length w' < n).
        { repeat (rewrite app_length in Hn; cbn [length] in Hn). llia. }
        destruct (load fs p) as [[[[l0 r0]|] fs']| | |]; cbn [bind]; try reflexivity.
        + specialize (IH n fs' (gs ++ l0) _ (put_all re r0) (at_re _ _ _ (put_all re r0) A7) Hn').
          destruct A7 as [_ ->]. exact IH.
        + exact (IH n fs' gs s7 re A7 Hn').
    Qed.

    Variable I : F -> Prop.
    Hypothesis HI : forall fs p x fs', I fs -> load fs p = Ret (x, fs') -> I fs'.
    Hypothesis Hscan : forall t, scan_float t <> Panic /\ scan_float t <> Fuel.
    Hypothesis Hmd5 : forall t, 16 <= String.length (md5 t).

    Lemma includes_out : forall n fs gs s rest re, At s rest re -> length rest < n -> I fs ->
      match includes_loop input letter_hi digit_hi fuel load n fs gs s with
      | Ret ((gs', fs'), s') => exists ps w r re', rest = w ++ r
          /\ load_all load fs gs re ps = Ret ((gs', fs'), re') /\ At s' r re' /\ I fs'
          /\ forall its l, w_items' its l r -> w_file' ps its l rest
      | Err => True
      | Panic => exists fs p, I fs /\ load fs p = Panic
      | Fuel => open_comment rest \/ exists fs p, I fs /\ load fs p = Fuel
      end.
    Proof.
      assert (OC : forall rest a b (P : Prop), rest = a ++ b -> open_comment b \/ P -> open_comment rest \/ P).
      { intros rest a b P -> [H|H]; [left; apply hangs_app; exact H|right; exact H]. }
      induction n as [|n IH]; intros fs gs s rest re HA Hn Hfs; [llia|]. cbn [includes_loop].
      pose proof (comments_out all Hall fuel Hfuel s rest re HA) as K1.
      destruct (comments input fuel s) as [s1| | |]; cbn [bind out] in *; try tauto.
      destruct K1 as (w1 & r1 & l1 & E1 & (Hw1 & ->) & A1). unfold st1 in A1.
      destruct (peek_at all Hall fuel Hfuel _ _ _ A1) as (s2 & E2 & A2). rewrite E2. cbn [bind].
      destruct (negb (Z.eqb (hd eof r1) r_hash)) eqn:Eh.
      { exists [], w1, r1, re. split; [exact E1|]. split; [reflexivity|]. split; [exact A2|]. split; [exact Hfs|].
        intros its l Hi. rewrite E1. apply wfile_rules. apply items_gap; assumption. }
      apply negb_false_iff, Z.eqb_eq in Eh. destruct r1 as [|c r1]; [discriminate|]. cbn [hd] in Eh. subst c.
      destruct (skip_at all Hall fuel Hfuel _ _ _ _ A2) as (s3 & E3 & A3). rewrite E3.
      cbn [app] in A3.
      pose proof (ws_out all Hall fuel Hfuel s3 r1 re A3) as K4.
      destruct (ws input fuel s3) as [s4| | |]; cbn [bind out] in *; try tauto.
      2: { apply (OC rest (w1 ++ [r_hash]) r1 _ ltac:(rewrite E1, <- app_assoc; reflexivity) (or_introl K4)). }
      destruct K4 as (w4 & r4 & l4 & E4 & (Hw4 & _ & ->) & A4). unfold st1 in A4.
      assert (E4' : rest = (w1 ++ [r_hash] ++ w4) ++ r4) by (rewrite E1, E4, <- !app_assoc; reflexivity).
      pose proof (text_out letter_hi digit_hi all Hall fuel Hfuel s4 r4 _ A4) as K5.
      destruct (text input letter_hi digit_hi fuel s4) as [[x s5]| | |]; cbn [bind out] in *; try tauto.
      2: { apply (OC rest _ _ _ E4' (or_introl K5)). }
      destruct K5 as (w5 & r5 & l5 & E5 & (-> & Hw5 & Ex) & A5). cbn [fst st2 snd] in *.
      destruct (negb (String.eqb x "include")) eqn:Ei; [exact Logic.I|].
      apply negb_false_iff, String.eqb_eq in Ei. rewrite Ei in Ex.
      change "include"%string with (encode [105; 110; 99; 108; 117; 100; 101]%Z) in Ex.
      assert (Ew5 : w5 = [105; 110; 99; 108; 117; 100; 101]%Z).
      { symmetry in Ex. rewrite E5 in A4. apply (name_is all Hall _ _ _ _ _ A4) in Ex; [exact Ex|].
        repeat constructor; discriminate. }
      subst w5.
      pose proof (ws_out all Hall fuel Hfuel s5 r5 _ A5) as K6.
      destruct (ws input fuel s5) as [s6| | |]; cbn [bind out] in *; try tauto.
      2: { rewrite E5 in E4'. rewrite app_assoc in E4'. apply (OC rest _ _ _ E4' (or_introl K6)). }
      destruct K6 as (w6 & r6 & l6 & E6 & (Hw6 & _ & ->) & A6). unfold st1 in A6.
      pose proof (terminal_out letter_hi digit_hi all Hall fuel Hfuel s6 r6 _ A6) as K7.
      destruct (terminal input letter_hi digit_hi fuel s6) as [[[fl p] s7]| | |]; cbn [bind out] in *; try tauto.
      2: { rewrite E5, E6 in E4'. rewrite !app_assoc in E4'. apply (OC rest _ _ _ E4' (or_introl K7)). }
      destruct K7 as (w7 & r7 & l7 & E7 & (-> & Hw7) & A7). cbn [fst st2 snd] in *.
      assert (E8 : rest = (w1 ++ [35]%Z ++ w4 ++ [105; 110; 99; 108; 117; 100; 101]%Z ++ w6 ++ w7) ++ r7).
      { rewrite E4', E5, E6, E7. rewrite <- !app_assoc. reflexivity. }
      assert (Hn' : length r7 < n).
      { rewrite E8 in Hn. rewrite app_length, app_length in Hn. cbn [length app] in Hn. llia. }
      destruct (load fs p) as [[[[l0 r0]|] fs']| | |] eqn:EL; cbn [bind].
      - specialize (IH fs' (gs ++ l0) _ r7 (put_all re r0) (at_re _ _ _ (put_all re r0) A7) Hn' (HI _ _ _ _ Hfs EL)).
        destruct A7 as [A7 A7']. rewrite A7'.
        change (fold_left (fun m kv => put m (fst kv) (snd kv)) r0
                  (put_all (put_all (put_all (put_all (put_all re []) []) []) []) [])) with (put_all re r0).
        destruct (includes_loop input letter_hi digit_hi fuel load n fs' (gs ++ l0) _) as [[[gs' fs2] s8]| | |]; auto.
        + destruct IH as (ps & w & r & re' & E9 & L & A9 & I9 & W).
          exists (p :: ps), ((w1 ++ [35]%Z ++ w4 ++ [105; 110; 99; 108; 117; 100; 101]%Z ++ w6 ++ w7) ++ w), r, re'.
          split; [rewrite E8, E9, <- !app_assoc; reflexivity|]. cbn [load_all]. rewrite EL. cbn [bind].
          split; [exact L|]. split; [exact A9|]. split; [exact I9|]. intros its l Hi.
          rewrite E8, <- !app_assoc. apply wfile_include with (fl := fl); auto.
        + exact (OC rest _ _ _ E8 IH).
      - specialize (IH fs' gs s7 r7 re A7 Hn' (HI _ _ _ _ Hfs EL)).
        destruct (includes_loop input letter_hi digit_hi fuel load n fs' gs s7) as [[[gs' fs2] s8]| | |]; auto.
        + destruct IH as (ps & w & r & re' & E9 & L & A9 & I9 & W).
          exists (p :: ps), ((w1 ++ [35]%Z ++ w4 ++ [105; 110; 99; 108; 117; 100; 101]%Z ++ w6 ++ w7) ++ w), r, re'.
          split; [rewrite E8, E9, <- !app_assoc; reflexivity|]. cbn [load_all]. rewrite EL. cbn [bind].
          split; [exact L|]. split; [exact A9|]. split; [exact I9|]. intros its l Hi.
          rewrite E8, <- !app_assoc. apply wfile_include with (fl := fl); auto.
        + exact (OC rest _ _ _ E8 IH).
      - exact Logic.I.
      - exists fs, p. auto.
      - right. exists fs, p. auto.
    Qed.
  End WithLoad.
End Main.
