(** Concrete scanners and grammars for the examples of PropMath.v. *)
From Coq Require Import Ascii.
From Verif Require Import Base ModelTypes ModelText ModelEarley ModelTrees ModelApi ModelQuote ModelSem ModelMath ModelFuncs
     SpecTypes SpecGrammar SpecTree SpecApi SpecSem SpecMath ProofUtf8 ProofMath Examples ExamplesSem.

(** decimal digits to the end, as fmt.Sscan reads them *)
Fixpoint scan_digits (s : string) (acc : Z) : option Z :=
  match s with
  | EmptyString => Some acc
  | String c s' => let d := (byte_of c - 48)%Z in
      if ((0 <=? d) && (d <=? 9))%Z then scan_digits s' (acc * 10 + d)%Z else None
  end.
Definition xscan_int (s : string) : option Z :=
  match s with
  | EmptyString => None
  | String c s' => if Ascii.eqb c "-" then option_map Z.opp (scan_digits s' 0) else scan_digits s 0
  end.
Definition xscan_float (s : string) : option bfloat :=
  option_map (fun z => BFin (z <? 0)%Z (Z.abs z) 0) (xscan_int s).

Lemma scan_digits_chars ds : Forall (fun d => 0 <= d <= 9)%Z ds -> forall acc,
  scan_digits (chars_of ds) acc = Some (fold_left (fun a d => a * 10 + d)%Z ds acc).
Proof.
  induction 1 as [|d ds Hd F IH]; intros acc; [reflexivity|]. cbn [chars_of scan_digits fold_left].
  change (ascii_of_N (Z.to_N (48 + d))) with (of_byte (48 + d)). rewrite byte_of_byte by lia.
  replace (48 + d - 48)%Z with d by lia. replace ((0 <=? d) && (d <=? 9))%Z with true; [apply IH|].
  symmetry. apply andb_true_intro. rewrite !Z.leb_le. lia.
Qed.
Lemma xscan_int_ok : scans_ints xscan_int.
Proof.
  intros z s (ds & F & Hne & _ & V & ->). destruct ds as [|d ds]; [congruence|].
  pose proof (scan_digits_chars _ F 0) as E. fold (number_of (d :: ds)) in E. rewrite V in E.
  destruct (Z.ltb_spec z 0).
  - cbn [append]. unfold xscan_int. cbn [Ascii.eqb Bool.eqb]. rewrite E. cbn. f_equal. lia.
  - cbn [append chars_of] in *. unfold xscan_int. replace (Ascii.eqb (ascii_of_N (Z.to_N (48 + d))) "-") with false.
    + rewrite E. f_equal. lia.
    + symmetry. apply Ascii.eqb_neq. intros C. apply (f_equal byte_of) in C.
      change (ascii_of_N (Z.to_N (48 + d))) with (of_byte (48 + d)) in C. inversion F; subst. rewrite byte_of_byte in C by lia.
      change (byte_of "-") with 45%Z in C. lia.
Qed.
Lemma xscan_float_ok : scans_floats xscan_float.
Proof. intros z s _ H. unfold xscan_float. rewrite (xscan_int_ok z s H). reflexivity. Qed.

Definition xmath (fn : string) (vs : list dval) : res (list dval) :=
  match vs with
  | [DStr x; DStr y] =>
      if String.eqb fn "nf.math.sum" then r <- sum xscan_float x y ;; Ret [DStr r]
      else if String.eqb fn "nf.math.sub" then r <- sub xscan_float x y ;; Ret [DStr r]
      else if String.eqb fn "nf.math.mul" then r <- mul xscan_float x y ;; Ret [DStr r]
      else Err
  | [DStr x] => if String.eqb fn "nf.math.neg" then Ret [DStr (neg xscan_float x)] else Err
  | _ => Err
  end.
Lemma xmath_registered : math_registered xscan_float xmath.
Proof. repeat split. Qed.

(** e = <e> "+" <t> { nf.math.sum($1, $3) } | <t> { nf.I($1) };
    t = <t> "*" <n> { nf.math.mul($1, $3) } | "-" <n> { nf.math.neg($2) } | <n> { nf.I($1) };
    n = "12" | "30" | "7" *)
Definition g_calc : list grammar_rules :=
  [[ ("e", mkRule "e" [(0%N, mkRb [xN "e"; xT "+"; xN "t"] (Some (FMR "nf.math.sum" [ix 1; ix 3])));
                       (1%N, mkRb [xN "t"] (Some (FMR "nf.I" [ix 1])))]);
     ("t", mkRule "t" [(0%N, mkRb [xN "t"; xT "*"; xN "n"] (Some (FMR "nf.math.mul" [ix 1; ix 3])));
                       (1%N, mkRb [xT "-"; xN "n"] (Some (FMR "nf.math.neg" [ix 2])));
                       (2%N, mkRb [xN "n"] (Some (FMR "nf.I" [ix 1])))]);
     xrule "n" [[xT "12"]; [xT "30"]; [xT "7"]] ]].
Definition calc_text : string := "12 + 30 * 7 + - 30".
(** the tokens of a text at the places where the text has them *)
Fixpoint place (i at_ : nat) (ws : list string) : list token :=
  match ws with
  | [] => []
  | w :: ws' => mkTok w KWord at_ (at_ + String.length w) i w w w :: place (S i) (at_ + String.length w + 1) ws'
  end.
Definition calc_words : list string := ["12"; "+"; "30"; "*"; "7"; "+"; "-"; "30"].
Definition calc_parse : res parse_t :=
  earley_parse_n xmatch (fun _ => id_ord) g_calc calc_text 400 0 true (place 0 0 calc_words) ["e"].

(** The arithmetic value of a node, computed. *)
Section Value.
  Variable p : parse_t.
  Definition small_b (z : Z) : option Z := if (Z.abs z <? 10 ^ 10)%Z then Some z else None.
  Definition text_b (t : string) : option Z :=
    match xscan_int t with Some z => if String.eqb (dec_Z z) t then small_b z else None | None => None end.
  Fixpoint arith_b (fuel : nat) (n : node) : option Z :=
    match fuel with
    | O => None
    | S fuel =>
        match function_of n with
        | None => match original_text p n with Ret t => text_b t | _ => None end
        | Some f => farith_b fuel n f
        end
    end
  with farith_b (fuel : nat) (n : node) (f : fmr) : option Z :=
    match fuel with
    | O => None
    | S fuel =>
        match f with
        | FMR fn [a] =>
            match aarith_b fuel n a with
            | Some x => if String.eqb fn "nf.I" then Some x
                        else if String.eqb fn "nf.math.neg" then if (x =? 0)%Z then None else Some (- x)%Z else None
            | None => None
            end
        | FMR fn [a; b] =>
            match aarith_b fuel n a, aarith_b fuel n b with
            | Some x, Some y =>
                if String.eqb fn "nf.math.sum" then small_b (x + y)
                else if String.eqb fn "nf.math.mul" then
                  if (0 <? Z.abs (x * y))%Z then small_b (x * y) else None
                else None
            | _, _ => None
            end
        | _ => None
        end
    end
  with aarith_b (fuel : nat) (n : node) (a : arg) : option Z :=
    match fuel with
    | O => None
    | S fuel =>
        match a with
        | Arg ty (VIdx i) =>
            if String.eqb ty "index" then
              if (0 <? i)%Z then match nth_error (n_children n) (Z.to_nat i - 1) with Some c => arith_b fuel c | None => None end
              else None
            else None
        | _ => None
        end
    end.
  Lemma small_b_ok z x : small_b z = Some x -> x = z /\ small z.
  Proof. unfold small_b, small. destruct (Z.ltb_spec (Z.abs z) (10 ^ 10)); [|discriminate]. intros [= <-]. auto. Qed.
  Lemma text_b_ok t z : text_b t = Some z -> numeral z t /\ small z.
  Proof.
    unfold text_b. destruct (xscan_int t) as [y|]; [|discriminate]. destruct (String.eqb_spec (dec_Z y) t) as [<-|]; [|discriminate].
    intros H. apply small_b_ok in H. destruct H as [-> H]. split; [apply dec_Z_numeral|exact H].
  Qed.
  Lemma arith_b_ok : forall fuel,
    (forall n z, arith_b fuel n = Some z -> Arith p n z)
    /\ (forall n f z, farith_b fuel n f = Some z -> FArith p n f z)
    /\ (forall n a z, aarith_b fuel n a = Some z -> AArith p n a z).
  Proof.
    induction fuel as [|fuel (IH1 & IH2 & IH3)]; [repeat split; discriminate|]. repeat split.
    - intros n z. cbn. destruct (function_of n) as [f|] eqn:Ef.
      + intros H. eapply Ar_fun; eauto.
      + destruct (original_text p n) as [t| | |] eqn:Et; try discriminate. intros H. apply text_b_ok in H. destruct H. eapply Ar_text; eauto.
    - intros n [fn [|a [|b [|c l]]]] z; cbn; try discriminate.
      + destruct (aarith_b fuel n a) as [x|] eqn:Ea; [|discriminate]. apply IH3 in Ea.
        destruct (String.eqb_spec fn "nf.I") as [->|]; [intros [= <-]; apply FA_identity; exact Ea|].
        destruct (String.eqb_spec fn "nf.math.neg") as [->|]; [|discriminate].
        destruct (Z.eqb_spec x 0); [discriminate|]. intros [= <-]. apply FA_neg; assumption.
      + destruct (aarith_b fuel n a) as [x|] eqn:Ea; [|discriminate]. apply IH3 in Ea.
        destruct (aarith_b fuel n b) as [y|] eqn:Eb; [|discriminate]. apply IH3 in Eb.
        destruct (String.eqb_spec fn "nf.math.sum") as [->|].
        { intros H. apply small_b_ok in H. destruct H as [-> H]. apply FA_sum; assumption. }
        destruct (String.eqb_spec fn "nf.math.mul") as [->|]; [|discriminate].
        destruct (Z.ltb_spec 0 (Z.abs (x * y))); [|discriminate]. intros H0. apply small_b_ok in H0. destruct H0 as [-> H0].
        apply FA_mul; try assumption. lia.
    - intros n [ty v] z; cbn. destruct v as [| | |i| |]; try discriminate.
      destruct (String.eqb_spec ty "index") as [->|]; [|discriminate]. destruct (Z.ltb_spec 0 i); [|discriminate].
      destruct (nth_error (n_children n) (Z.to_nat i - 1)) as [c|] eqn:E; [|discriminate]. intros Hc.
      replace i with (Z.of_nat (S (Z.to_nat i - 1))) by lia. eapply AA_child; eauto.
  Qed.
End Value.
Lemma calc_arith : exists p t, xtrees 400 calc_parse = Ret [(p, t)] /\ Arith p t 192.
Proof.
  assert (exists p t, xtrees 400 calc_parse = Ret [(p, t)] /\ arith_b p 100 t = Some 192%Z) as (p & t & E & A).
  { destruct (xtrees 400 calc_parse) as [[|[p t] [|]]| | |] eqn:E.
    2: { exists p, t. split; [reflexivity|].
         assert (match xtrees 400 calc_parse with Ret [(p, t)] => arith_b p 100 t | _ => None end = Some 192%Z) as H by (vm_compute; reflexivity).
         rewrite E in H. exact H. }
    all: assert (match xtrees 400 calc_parse with Ret [(p, t)] => True | _ => False end) as H by (vm_compute; exact I); rewrite E in H; destruct H. }
  exists p, t. split; [exact E|]. apply (proj1 (arith_b_ok p 100)). exact A.
Qed.

Definition prime_b (z : Z) : bool := if Znumtheory.prime_dec z then true else false.
Lemma exact_primes : exists f, (forall z, f z = true <-> Znumtheory.prime z) /\ prime xscan_int f "7" = "true" /\ prime xscan_int f "12" = "false".
Proof.
  exists prime_b. unfold prime_b. split; [intros z; destruct (Znumtheory.prime_dec z); split; auto; discriminate|].
  unfold prime. change (xscan_int "7") with (Some 7%Z). change (xscan_int "12") with (Some 12%Z). cbn iota. split.
  - destruct (Znumtheory.prime_dec 7) as [|N]; [reflexivity|]. exfalso. apply N. apply Znumtheory.prime_alt. split; [lia|].
    intros n Hn (k & Hk). assert (n = 2 \/ n = 3 \/ n = 4 \/ n = 5 \/ n = 6)%Z as [->|[->|[->|[->| ->]]]] by lia; lia.
  - destruct (Znumtheory.prime_dec 12) as [P|]; [|reflexivity]. exfalso. apply Znumtheory.prime_alt in P. destruct P as [_ P].
    apply (P 2%Z); [lia|]. exists 6%Z. reflexivity.
Qed.
