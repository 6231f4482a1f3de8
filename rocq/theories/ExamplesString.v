(** Functions printed and read in a small environment. *)
From Coq Require Import Ascii.
From Verif Require Import Base ModelTypes ModelText ModelEarley ModelReader ModelGrammar ModelQuote ModelString
  SpecNotation SpecConstruct SpecString ProofString ExamplesGrammar.

(** no printable characters above U+00FF; floats print as "3" *)
Definition xprint : fmr -> string := fmr_string (fun _ => false) (fun _ => "3"%string).
(** the function of the first rule read from [<s>=<a>{f};] *)
Definition reread (f : fmr) : option (option fmr) :=
  match from_string (xenv [] keep) 300 1 (rule_text "s" "a" (xprint f)) "n" [] with
  | Ret (Some g, _) => match g_rules g with (_, r) :: _ => match r_body r with (_, b) :: _ => Some (rb_f b) | _ => None end | _ => None end
  | _ => None
  end.

(** nested calls, a negative number, quotes, a backslash and a newline *)
Definition text_runes : list rune := [97; 34; 92; 10; 32; 40]%Z.
Definition big_fmr : fmr :=
  FMR "nf.f" [Arg "string" (VStr (encode text_runes)); Arg "int" (VInt (-120)); Arg "index" (VIdx 2);
              Arg "func" (VFunc (FMR "g" [Arg "func" (VFunc (FMR "h" [Arg "int" (VInt 0)])); Arg "string" (VStr "")]))].
Definition with_context : fmr :=
  FMR "f" [Arg "index" (VIdx 1); Arg "func" (VFunc (FMR "g" [Arg "context" (VStr "@")]))].

Lemma big_plain : plain_fmr (is_letter (fun _ => false)) (is_digit (fun _ => false)) (fun _ => Err)
                    (is_print (fun _ => false)) (fun _ => "3"%string) big_fmr.
Proof.
  assert (G : forall w, forallb (fun c => (0 <=? c) && (c <? 128))%Z w = true -> Forall good w).
  { intros w H. rewrite forallb_forall in H. apply Forall_forall. intros c Hc. apply ascii_good. specialize (H c Hc).
    apply andb_prop in H. destruct H as [H1 H2]. apply Z.leb_le in H1. apply Z.ltb_lt in H2. lia. }
  assert (D : forall x l w, w = x :: l -> (x <> 46)%Z -> Forall (fun c => c <> 46)%Z l -> ~ exists a b, w = a ++ [46; 46]%Z ++ b).
  { intros x l w -> Hx Hl (a & b & E). assert (In 46%Z (x :: l)) as [K|K].
    - rewrite E. apply in_or_app. right. left. reflexivity.
    - exact (Hx K).
    - rewrite Forall_forall in Hl. exact (Hl _ K eq_refl). }
  unfold big_fmr.
  apply (pf_intro _ _ _ _ _ [110; 102; 46; 102]%Z); [apply G; reflexivity| |].
  { split; [split; [left; reflexivity|]; constructor; [left; left; reflexivity|]; constructor; [right; reflexivity|]; constructor; [left; left; reflexivity|constructor]|].
    intros ([|a0 [|a1 [|a2 [|a3 a]]]] & b & E); cbn in E; try discriminate E. injection E as _ _ _ _ E. destruct a; discriminate E. }
  constructor.
  { apply pa_string. split; [|right; right; split; [reflexivity|discriminate]]. unfold text_runes.
    repeat (constructor; [split; [apply ascii_good; lia|]; auto|]). constructor. }
  constructor; [apply pa_int|]. constructor; [apply pa_index; lia|]. constructor. apply pa_func.
  apply (pf_intro _ _ _ _ _ [103]%Z); [apply G; reflexivity| |].
  { split; [split; [left; reflexivity|constructor]|]. apply (D 103%Z []); [reflexivity|discriminate|constructor]. }
  constructor; [apply pa_func|constructor].
  - apply (pf_intro _ _ _ _ _ [104]%Z); [apply G; reflexivity| |].
    { split; [split; [left; reflexivity|constructor]|]. apply (D 104%Z []); [reflexivity|discriminate|constructor]. }
    constructor. apply pa_int.
  - apply (pa_string _ _ _ _ _ []). split; [constructor|exact I].
Qed.
