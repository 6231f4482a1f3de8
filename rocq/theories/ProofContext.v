(** Proofs about the context tagger's address. *)
From Coq Require Import Ascii Permutation.
From Verif Require Import Base ModelTypes ModelText ModelEarley ModelTrees ModelApi ModelLocal ModelGrammar ModelFrames SpecConstruct ModelContext SpecContext.
Local Open Scope list_scope.

Lemma hex_value_ok c n : hex c n -> hex_value c = Some n.
Proof.
  intros H. destruct H as [n H|n H|n H].
  - do 10 (destruct n as [|n]; [reflexivity|]). lia.
  - do 6 (destruct n as [|n]; [reflexivity|]). lia.
  - do 6 (destruct n as [|n]; [reflexivity|]). lia.
Qed.
Lemma eqb_neq_a a b : a <> b -> Ascii.eqb a b = false.
Proof. intros H. apply Ascii.eqb_neq. exact H. Qed.
Lemma unescape_ok bad s t : spells bad s t -> unescape s = Some t.
Proof.
  intros H. induction H as [|c s t H1 H2 H3 H IH|s t H IH|a b x y s t Ha Hb H IH].
  - reflexivity.
  - cbn [unescape]. rewrite (eqb_neq_a _ _ H1), (eqb_neq_a _ _ H2), IH. reflexivity.
  - cbn. rewrite IH. reflexivity.
  - cbn [unescape]. rewrite Ascii.eqb_refl, (hex_value_ok _ _ Ha), (hex_value_ok _ _ Hb), IH. reflexivity.
Qed.

Lemma hex_digit_ok n : n < 16 -> hex (hex_digit n) n.
Proof.
  intros H. unfold hex_digit. destruct (Nat.ltb n 10) eqn:E.
  - apply Nat.ltb_lt in E. apply hex_dec. exact E.
  - apply Nat.ltb_ge in E. replace n with (10 + (n - 10)) by lia. replace (55 + (10 + (n - 10))) with (nat_of_ascii "A" + (n - 10)).
    + apply hex_upper. lia.
    + change (nat_of_ascii "A") with 65. lia.
Qed.
Lemma kept_chars c : kept c = true -> c <> "%"%char /\ c <> "+"%char /\ ~ In c ["&"; ";"; "="]%char.
Proof. intros H. repeat split; try (intros ->; discriminate). intros [<-|[<-|[<-|[]]]]; discriminate. Qed.
Lemma escape_ok t : spells ["&"; ";"; "="]%char (escape t) t.
Proof.
  induction t as [|c t IH].
  - apply sp_nil.
  - cbn [escape]. destruct (kept c) eqn:E.
    + destruct (kept_chars c E) as (A & B & C). apply sp_char; assumption.
    + destruct (Ascii.eqb c " ") eqn:E2.
      * apply Ascii.eqb_eq in E2. subst c. apply sp_blank. exact IH.
      * rewrite <- (ascii_nat_embedding c) at 3.
        assert (L : nat_of_ascii c < 256) by apply nat_ascii_bounded.
        rewrite (Nat.div_mod (nat_of_ascii c) 16) at 3 by discriminate.
        apply sp_byte; [| |exact IH].
        -- apply hex_digit_ok. apply Nat.div_lt_upper_bound; lia.
        -- apply hex_digit_ok. apply Nat.mod_upper_bound. discriminate.
Qed.
Lemma spells_weaker bad bad' s t : (forall c, In c bad' -> In c bad) -> spells bad s t -> spells bad' s t.
Proof.
  intros Hb H. induction H; [apply sp_nil|apply sp_char|apply sp_blank|apply sp_byte]; auto.
Qed.
Lemma escape_value_ok t : spells ["&"; ";"]%char (escape t) t.
Proof. apply (spells_weaker ["&"; ";"; "="]%char); [|apply escape_ok]. intros c [<-|[<-|[]]]; cbn; auto. Qed.

(** Bytes that do not occur. *)
Fixpoint free (b : ascii) (s : string) : Prop := match s with EmptyString => True | String c s' => c <> b /\ free b s' end.
Lemma hex_not c n b : hex c n -> In b ["&"; ";"; "="]%char -> c <> b.
Proof.
  intros H Hb E. subst c. apply hex_value_ok in H. destruct Hb as [<-|[<-|[<-|[]]]]; discriminate.
Qed.
Lemma spells_free bad s t b : In b bad -> In b ["&"; ";"; "="]%char -> spells bad s t -> free b s.
Proof.
  intros Hb Hb' H. induction H as [|c s t H1 H2 H3 H IH|s t H IH|x y m n s t Ha Hc H IH]; cbn [free].
  - exact I.
  - split; [|exact IH]. intros ->. exact (H3 Hb).
  - split; [|exact IH]. intros E. subst b. destruct Hb' as [E|[E|[E|[]]]]; discriminate.
  - repeat split; [|exact (hex_not _ _ _ Ha Hb')|exact (hex_not _ _ _ Hc Hb')|exact IH].
    intros E. subst b. destruct Hb' as [E|[E|[E|[]]]]; discriminate.
Qed.
Lemma free_app b s t : free b s -> free b t -> free b (s ++ t).
Proof. intros Hs Ht. induction s as [|c s IH]; [exact Ht|]. destruct Hs as [H1 H2]. split; [exact H1|exact (IH H2)]. Qed.
Lemma cut_found b s t : free b s -> cut b (s ++ String b t) = (s, Some t).
Proof.
  induction s as [|c s IH]; intros H.
  - cbn [cut String.append]. rewrite Ascii.eqb_refl. reflexivity.
  - destruct H as [H1 H2]. cbn [cut String.append]. rewrite (eqb_neq_a _ _ H1), (IH H2). reflexivity.
Qed.
Lemma cut_none b s : free b s -> cut b s = (s, None).
Proof.
  induction s as [|c s IH]; intros H; [reflexivity|]. destruct H as [H1 H2].
  cbn [cut]. rewrite (eqb_neq_a _ _ H1), (IH H2). reflexivity.
Qed.
Lemma pieces_one s : free "&" s -> pieces s = [s].
Proof.
  induction s as [|c s IH]; intros H; [reflexivity|]. destruct H as [H1 H2].
  cbn [pieces]. rewrite (eqb_neq_a _ _ H1), (IH H2). reflexivity.
Qed.
Lemma pieces_more s q : free "&" s -> pieces (s ++ String "&" q) = s :: pieces q.
Proof.
  induction s as [|c s IH]; intros H; [reflexivity|]. destruct H as [H1 H2].
  cbn [pieces String.append]. rewrite (eqb_neq_a _ _ H1), (IH H2). reflexivity.
Qed.

(** What one piece says. *)
Definition read_piece (piece : string) : option (string * string) :=
  if String.eqb piece "" then None
  else match snd (cut ";" piece) with
  | Some _ => None
  | None =>
      match unescape (fst (cut "=" piece)), unescape (match snd (cut "=" piece) with Some v => v | None => ""%string end) with
      | Some k, Some v => Some (k, v)
      | _, _ => None
      end
  end.
Lemma add_piece_read m piece : add_piece m piece = match read_piece piece with None => m | Some (k, v) => add_value m k v end.
Proof.
  unfold add_piece, read_piece. destruct (String.eqb piece ""); [reflexivity|]. destruct (snd (cut ";" piece)); [reflexivity|].
  destruct (unescape (fst (cut "=" piece))); [|reflexivity].
  destruct (unescape (match snd (cut "=" piece) with Some v => v | None => ""%string end)); reflexivity.
Qed.
Fixpoint read_all (l : list string) : list (string * string) :=
  match l with [] => [] | p :: l' => match read_piece p with None => read_all l' | Some e => e :: read_all l' end end.
Definition add_all (l : list (string * string)) (m : values) : values := fold_left (fun m e => add_value m (fst e) (snd e)) l m.
Lemma parse_read_from l : forall m, fold_left add_piece l m = add_all (read_all l) m.
Proof.
  induction l as [|p l IH]; intros m; [reflexivity|]. cbn [fold_left read_all]. rewrite IH, add_piece_read.
  destruct (read_piece p) as [[k v]|]; reflexivity.
Qed.
Lemma parse_read q : parse_query q = add_all (read_all (pieces q)) [].
Proof. apply parse_read_from. Qed.

Lemma append_not_empty s c t : String.eqb (s ++ String c t) "" = false.
Proof. destruct s; reflexivity. Qed.
Lemma parameter_free s p : parameter s p -> free "&" s /\ free ";" s.
Proof.
  intros H. destruct H as [sk sv k v Hk Hv|sk k Hk Hn].
  - split; (apply free_app; [eapply spells_free; [|  |exact Hk]; cbn; auto|]); (split; [discriminate|]);
      eapply spells_free; [| |exact Hv| | |exact Hv]; cbn; auto.
  - split; eapply spells_free; [| |exact Hk| | |exact Hk]; cbn; auto.
Qed.
Lemma read_parameter s p : parameter s p -> read_piece s = Some p.
Proof.
  intros H. destruct (parameter_free s p H) as [_ F]. unfold read_piece. rewrite (cut_none _ _ F). cbn [snd].
  destruct H as [sk sv k v Hk Hv|sk k Hk Hn].
  - change ("=" ++ sv)%string with (String "=" sv). rewrite append_not_empty, cut_found.
    + cbn [fst snd]. rewrite (unescape_ok _ _ _ Hk), (unescape_ok _ _ _ Hv). reflexivity.
    + eapply spells_free; [| |exact Hk]; cbn; auto.
  - rewrite cut_none.
    + cbn [fst snd]. rewrite (unescape_ok _ _ _ Hk). destruct sk; [|reflexivity].
      exfalso. apply Hn. apply unescape_ok in Hk. cbn in Hk. congruence.
    + eapply spells_free; [| |exact Hk]; cbn; auto.
Qed.
Lemma query_read q l : query q l -> read_all (pieces q) = l.
Proof.
  intros H. induction H as [|s p H|s p q l H Hq IH].
  - reflexivity.
  - rewrite (pieces_one _ (proj1 (parameter_free _ _ H))). cbn [read_all]. rewrite (read_parameter _ _ H). reflexivity.
  - change ("&" ++ q)%string with (String "&" q). rewrite (pieces_more _ _ (proj1 (parameter_free _ _ H))).
    cbn [read_all]. rewrite (read_parameter _ _ H), IH. reflexivity.
Qed.
Lemma query_unique q l l' : query q l -> query q l' -> l = l'.
Proof. intros H H'. rewrite <- (query_read _ _ H), <- (query_read _ _ H'). reflexivity. Qed.

(** The values of a key in a map. *)
Definition vals (m : values) (k : string) : list string := match lookup m k with None => [] | Some vs => vs end.
Lemma vals_add m k v k' : vals (add_value m k v) k' = vals m k' ++ (if String.eqb k k' then [v] else []).
Proof.
  unfold vals. induction m as [|[a vs] m IH].
  - cbn. destruct (String.eqb k k'); reflexivity.
  - cbn [add_value]. destruct (String.eqb a k) eqn:E; cbn [lookup].
    + apply String.eqb_eq in E. subst a. destruct (String.eqb k k'); [reflexivity|]. rewrite app_nil_r. reflexivity.
    + destruct (String.eqb a k') eqn:E2; [|exact IH].
      apply String.eqb_eq in E2. subst a. rewrite String.eqb_sym, E, app_nil_r. reflexivity.
Qed.
Lemma vals_add_all l : forall m k, vals (add_all l m) k = vals m k ++ values_of k l.
Proof.
  unfold add_all, values_of. induction l as [|[a v] l IH]; intros m k; cbn [fold_left filter map fst snd].
  - rewrite app_nil_r. reflexivity.
  - rewrite IH, vals_add, <- app_assoc. destruct (String.eqb a k); reflexivity.
Qed.
Lemma vals_set m k v k' : vals (set_value m k v) k' = if String.eqb k k' then [v] else vals m k'.
Proof.
  unfold vals. induction m as [|[a vs] m IH].
  - cbn. destruct (String.eqb k k'); reflexivity.
  - cbn [set_value]. destruct (String.eqb a k) eqn:E; cbn [lookup].
    + apply String.eqb_eq in E. subst a. destruct (String.eqb k k'); reflexivity.
    + destruct (String.eqb a k') eqn:E2; [|exact IH].
      apply String.eqb_eq in E2. subst a. rewrite String.eqb_sym, E. reflexivity.
Qed.
Lemma keys_add m k v x : In x (map fst (add_value m k v)) -> x = k \/ In x (map fst m).
Proof.
  induction m as [|[a vs] m IH]; cbn; [intuition|]. destruct (String.eqb a k); cbn; intuition.
Qed.
Lemma nodup_add m k v : NoDup (map fst m) -> NoDup (map fst (add_value m k v)).
Proof.
  induction m as [|[a vs] m IH]; cbn; intros H.
  - constructor; [intros []|constructor].
  - inversion H as [|? ? H1 H2]; subst. destruct (String.eqb a k) eqn:E; cbn [map fst]; [exact H|].
    constructor; [|exact (IH H2)]. intros Hin. apply keys_add in Hin. destruct Hin as [->|Hin]; [|exact (H1 Hin)].
    rewrite String.eqb_refl in E. discriminate.
Qed.
Lemma nodup_add_all l : forall m, NoDup (map fst m) -> NoDup (map fst (add_all l m)).
Proof. unfold add_all. induction l as [|e l IH]; intros m H; [exact H|]. cbn [fold_left]. apply IH, nodup_add, H. Qed.
Lemma keys_set m k v x : In x (map fst (set_value m k v)) -> x = k \/ In x (map fst m).
Proof.
  induction m as [|[a vs] m IH]; cbn; [intuition|]. destruct (String.eqb a k); cbn; intuition.
Qed.
Lemma nodup_set m k v : NoDup (map fst m) -> NoDup (map fst (set_value m k v)).
Proof.
  induction m as [|[a vs] m IH]; cbn; intros H.
  - constructor; [intros []|constructor].
  - inversion H as [|? ? H1 H2]; subst. destruct (String.eqb a k) eqn:E; cbn [map fst]; [exact H|].
    constructor; [|exact (IH H2)]. intros Hin. apply keys_set in Hin. destruct Hin as [->|Hin]; [|exact (H1 Hin)].
    rewrite String.eqb_refl in E. discriminate.
Qed.

Lemma insert_perm e m : Permutation (insert_key e m) (e :: m).
Proof.
  induction m as [|a m IH]; [apply Permutation_refl|]. cbn [insert_key]. destruct (String.leb (fst e) (fst a)); [apply Permutation_refl|].
  eapply perm_trans; [apply perm_skip, IH|apply perm_swap].
Qed.
Lemma sorted_perm m : Permutation (sorted m) m.
Proof.
  induction m as [|a m IH]; [apply Permutation_refl|]. unfold sorted in *. cbn [fold_right].
  eapply perm_trans; [apply insert_perm|apply perm_skip, IH].
Qed.
Lemma lookup_in (m : values) k vs : NoDup (map fst m) -> In (k, vs) m -> lookup m k = Some vs.
Proof.
  induction m as [|[a ws] m IH]; cbn; intros H Hin; [destruct Hin|]. inversion H as [|? ? H1 H2]; subst.
  destruct (String.eqb a k) eqn:E.
  - apply String.eqb_eq in E. subst a. destruct Hin as [Hin|Hin]; [congruence|].
    exfalso. apply H1. apply (in_map fst) in Hin. exact Hin.
  - destruct Hin as [Hin|Hin]; [|exact (IH H2 Hin)]. injection Hin as -> ->. rewrite String.eqb_refl in E. discriminate.
Qed.
Lemma lookup_some (m : values) k vs : lookup m k = Some vs -> In (k, vs) m.
Proof.
  induction m as [|[a ws] m IH]; cbn; [discriminate|]. destruct (String.eqb a k) eqn:E; intros H.
  - apply String.eqb_eq in E. left. congruence.
  - right. exact (IH H).
Qed.
Lemma vals_perm m m' k : NoDup (map fst m) -> Permutation m m' -> vals m k = vals m' k.
Proof.
  intros Hn Hp. assert (Hn' : NoDup (map fst m')) by (eapply Permutation_NoDup; [apply Permutation_map, Hp|exact Hn]).
  unfold vals. destruct (lookup m k) as [vs|] eqn:E.
  - apply lookup_some in E. apply (Permutation_in _ Hp) in E. rewrite (lookup_in _ _ _ Hn' E). reflexivity.
  - destruct (lookup m' k) as [vs|] eqn:E'; [|reflexivity].
    apply lookup_some in E'. apply (Permutation_in _ (Permutation_sym Hp)) in E'. rewrite (lookup_in _ _ _ Hn E') in E. discriminate.
Qed.

(** The parameters written by Encode. *)
Definition pairs (m : values) : list (string * string) := flat_map (fun e => map (pair (fst e)) (snd e)) m.
Lemma values_of_app k l l' : values_of k (l ++ l') = values_of k l ++ values_of k l'.
Proof. unfold values_of. rewrite filter_app, map_app. reflexivity. Qed.
Lemma values_of_same a vs k : values_of k (map (pair a) vs) = if String.eqb a k then vs else [].
Proof.
  unfold values_of. induction vs as [|v vs IH]; cbn; [destruct (String.eqb a k); reflexivity|].
  destruct (String.eqb a k); cbn; rewrite IH; reflexivity.
Qed.
Lemma values_of_absent m k : ~ In k (map fst m) -> values_of k (pairs m) = [].
Proof.
  induction m as [|[a vs] m IH]; intros H; [reflexivity|]. unfold pairs in *. cbn [flat_map fst snd]. rewrite values_of_app, values_of_same.
  cbn in H. destruct (String.eqb a k) eqn:E; [apply String.eqb_eq in E; tauto|]. apply IH. tauto.
Qed.
Lemma values_of_pairs m k : NoDup (map fst m) -> values_of k (pairs m) = vals m k.
Proof.
  unfold vals. induction m as [|[a vs] m IH]; intros H; [reflexivity|]. inversion H as [|? ? H1 H2]; subst.
  unfold pairs in *. cbn [flat_map fst snd lookup]. rewrite values_of_app, values_of_same. destruct (String.eqb a k) eqn:E.
  - apply String.eqb_eq in E. subst a. fold (pairs m). rewrite (values_of_absent m k H1), app_nil_r. reflexivity.
  - apply (IH H2).
Qed.
Lemma concat_query l : forall sl, Forall2 parameter sl l -> query (String.concat "&" sl) l.
Proof.
  induction l as [|p l IH]; intros sl H; inversion H as [|s ? sl' ? Hp Hl]; subst; [apply q_none|].
  cbn [String.concat]. destruct sl' as [|s' sl'].
  - inversion Hl; subst. apply q_one. exact Hp.
  - apply q_more; [exact Hp|]. apply (IH (s' :: sl')). exact Hl.
Qed.
Lemma assignments_pairs m : Forall2 parameter (assignments m) (pairs m).
Proof.
  unfold assignments, pairs. induction m as [|[a vs] m IH]; [constructor|]. cbn [flat_map fst snd]. apply Forall2_app; [|exact IH].
  induction vs as [|v vs IHv]; cbn [map]; constructor; [|exact IHv]. apply param; [apply escape_ok|apply escape_value_ok].
Qed.

(** The new query. *)
Definition new_query (raw ctx : string) : string := encode_query (set_value (parse_query raw) "context" ctx).
Definition new_parameters (raw ctx : string) : list (string * string) := pairs (sorted (set_value (parse_query raw) "context" ctx)).
Lemma new_query_ok raw ctx : query (new_query raw ctx) (new_parameters raw ctx).
Proof. apply concat_query, assignments_pairs. Qed.
Lemma parsed_nodup raw : NoDup (map fst (parse_query raw)).
Proof. rewrite parse_read. apply nodup_add_all. constructor. Qed.
Lemma new_values raw ctx k :
  values_of k (new_parameters raw ctx) = if String.eqb "context" k then [ctx] else values_of k (read_all (pieces raw)).
Proof.
  unfold new_parameters. set (m := set_value (parse_query raw) "context" ctx).
  assert (N : NoDup (map fst m)) by (apply nodup_set, parsed_nodup).
  rewrite values_of_pairs by (eapply Permutation_NoDup; [apply Permutation_map, Permutation_sym, sorted_perm|exact N]).
  rewrite <- (vals_perm m _ k N (Permutation_sym (sorted_perm m))). unfold m. rewrite vals_set.
  destruct (String.eqb "context" k); [reflexivity|]. rewrite parse_read, vals_add_all. reflexivity.
Qed.
Lemma new_context raw ctx : values_of "context" (new_parameters raw ctx) = [ctx].
Proof. rewrite new_values. reflexivity. Qed.
Lemma new_with raw ctx l : query raw l -> with_parameter "context" ctx l (new_parameters raw ctx).
Proof.
  intros H. split; [apply new_context|]. intros k Hk. rewrite new_values, (query_read _ _ H).
  destruct (String.eqb "context" k) eqn:E; [|reflexivity]. apply String.eqb_eq in E. congruence.
Qed.
Lemma new_differs raw raw' ctx ctx' : ctx <> ctx' -> new_query raw ctx <> new_query raw' ctx'.
Proof.
  intros H E. apply H. assert (Q := new_query_ok raw' ctx'). rewrite <- E in Q.
  assert (L := query_unique _ _ _ (new_query_ok raw ctx) Q). assert (C := new_context raw ctx). rewrite L, new_context in C. congruence.
Qed.

Section Calls.
  Variable address tagger : Type.
  Variable parse_uri : string -> option (address * string).
  Variable uri_string : address -> string -> string.
  Variable api_tagger : string -> option tagger.
  Variable annotate_plain : string -> res document.
  Variable annotate_pro : tagger -> string -> res document.
  Notation annotate flag := (context_annotate address tagger parse_uri uri_string api_tagger annotate_plain annotate_pro flag).

  (** A call depends on the annotation of the trimmed text only. *)
  Lemma calls_same tmatch ords gs hash find_all span_text regexps lord a1 a2 steps fuel ctx text starts :
    a1 ctx (trim_space text) = a2 ctx (trim_space text) ->
    calls tmatch ords gs hash find_all span_text regexps lord a1 steps fuel ctx text starts =
    calls tmatch ords gs hash find_all span_text regexps lord a2 steps fuel ctx text starts.
  Proof.
    intros H. unfold calls.
    assert (L : doc_local hash find_all span_text regexps lord a1 ctx text = doc_local hash find_all span_text regexps lord a2 ctx text).
    { unfold doc_local. rewrite H. reflexivity. }
    rewrite L.
    assert (P : forall loc, process (doc_tokens a1) loc ctx text = process (doc_tokens a2) loc ctx text).
    { intros loc. unfold process, doc_tokens. rewrite H. reflexivity. }
    unfold Parse, ParseAny, ExtractMaxAll, ExtractAll, EarleyParse, EarleyParseAny, EarleyParseMaxAll, EarleyParseAll. rewrite !P. reflexivity.
  Qed.
  Lemma calls_err tmatch ords gs hash find_all span_text regexps lord a steps fuel ctx text starts :
    a ctx (trim_space text) = Err ->
    all_refuse (calls tmatch ords gs hash find_all span_text regexps lord a steps fuel ctx text starts).
  Proof.
    intros H. unfold all_refuse, calls.
    assert (P : forall loc, process (doc_tokens a) loc ctx text = Err).
    { intros loc. unfold process, doc_tokens. rewrite H. destruct (String.eqb (trim_space text) ""); reflexivity. }
    unfold Parse, ParseAny, ExtractMaxAll, ExtractAll, EarleyParse, EarleyParseAny, EarleyParseMaxAll, EarleyParseAll. rewrite !P. reflexivity.
  Qed.

  Lemma no_tagger flag tmatch ords gs hash find_all span_text regexps lord steps fuel ctx text starts :
    ctx <> ""%string -> flag = ""%string \/ parse_uri flag = None ->
    all_refuse (calls tmatch ords gs hash find_all span_text regexps lord (annotate flag) steps fuel ctx text starts).
  Proof.
    intros Hc Hf. apply calls_err. unfold context_annotate. apply String.eqb_neq in Hc. rewrite Hc.
    destruct (String.eqb flag "") eqn:E; [reflexivity|]. destruct Hf as [-> | ->]; [discriminate|reflexivity].
  Qed.
  Lemma no_context flag tmatch ords gs hash find_all span_text regexps lord steps fuel text starts :
    calls tmatch ords gs hash find_all span_text regexps lord (annotate flag) steps fuel "" text starts =
    calls tmatch ords gs hash find_all span_text regexps lord (fun _ => annotate_plain) steps fuel "" text starts.
  Proof. apply calls_same. reflexivity. Qed.
  Lemma asked flag a raw ctx : ctx <> ""%string -> flag <> ""%string -> parse_uri flag = Some (a, raw) ->
    exists q l, query q l /\ values_of "context" l = [ctx] /\ (forall l0, query raw l0 -> with_parameter "context" ctx l0 l) /\
    forall tmatch ords gs hash find_all span_text regexps lord steps fuel text starts,
      match api_tagger (uri_string a q) with
      | None => all_refuse (calls tmatch ords gs hash find_all span_text regexps lord (annotate flag) steps fuel ctx text starts)
      | Some t =>
          calls tmatch ords gs hash find_all span_text regexps lord (annotate flag) steps fuel ctx text starts =
          calls tmatch ords gs hash find_all span_text regexps lord (fun _ => annotate_pro t) steps fuel ctx text starts
      end.
  Proof.
    intros Hc Hf Hp. exists (new_query raw ctx), (new_parameters raw ctx). split; [apply new_query_ok|]. split; [apply new_context|].
    split; [intros l0 H; apply new_with; exact H|]. intros. apply String.eqb_neq in Hc, Hf.
    destruct (api_tagger (uri_string a (new_query raw ctx))) as [t|] eqn:E.
    - apply calls_same. unfold context_annotate. rewrite Hc, Hf, Hp. unfold new_query in E. rewrite E. reflexivity.
    - apply calls_err. unfold context_annotate. rewrite Hc, Hf, Hp. unfold new_query in E. rewrite E. reflexivity.
  Qed.
  Lemma no_frames flag g key multi fo tmatch ords local join_words float_string json is_print_hi call fuel ctx text :
    ctx <> ""%string -> flag = ""%string \/ parse_uri flag = None ->
    (forall fs, MatchFrames g key multi fo tmatch ords (doc_tokens (annotate flag)) local fuel ctx text <> Ret fs) /\
    (forall l, FrameFMR g key multi fo tmatch ords (doc_tokens (annotate flag)) local join_words float_string json is_print_hi call fuel ctx text <> Ret l) /\
    (calm (get_candidates g key multi fo fuel text) ->
     MatchFrames g key multi fo tmatch ords (doc_tokens (annotate flag)) local fuel ctx text = Err /\
     FrameFMR g key multi fo tmatch ords (doc_tokens (annotate flag)) local join_words float_string json is_print_hi call fuel ctx text = Err).
  Proof.
    intros Hc Hf.
    assert (P : process (doc_tokens (annotate flag)) local ctx text = Err).
    { unfold process, doc_tokens, context_annotate. apply String.eqb_neq in Hc. rewrite Hc.
      destruct (String.eqb (trim_space text) ""); [reflexivity|]. destruct (String.eqb flag "") eqn:E; [reflexivity|].
      destruct Hf as [-> | ->]; [discriminate|reflexivity]. }
    unfold FrameFMR, MatchFrames, EarleyParseAll. rewrite P. unfold calm.
    destruct (get_candidates g key multi fo fuel text) as [[fs st]| | |]; cbn [Base.bind]; (split; [intros ?; discriminate|split; [intros ?; discriminate|]]); intros [A B]; first [split; reflexivity|exfalso; congruence].
  Qed.
End Calls.
