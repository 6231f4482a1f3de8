(** Texts for the examples of C60. *)
From Coq Require Import Lia.
From Verif Require Import Base ModelTypes ModelText ModelQuote ModelReader ModelEarley ModelGrammar ModelReport
  SpecNotation SpecConstruct SpecReport ExamplesGrammar ProofUtf8 ProofReaderBack ProofReportPlace.
Local Open Scope list_scope.

Definition plain_others : others := mkOthers (fun _ => true) (fun x => x) (fun x => x) (fun x => x) "stop".
Definition report_of (d : string) :=
  string_report (xenv [] keep) plain_others 200 2 d "n" [].

(** a blank, a newline and a letter *)
Definition second_row : string := String (of_byte 32) (String (of_byte 10) "x").
(** an opening bracket and a byte that is not UTF-8 *)
Definition cut_name : string := String (of_byte 60) (String (of_byte 255) "").

(** <a> = and a blank, where a term has to follow *)
Definition start_seven : list rune := [60; 97; 62; 32; 61; 32]%Z.

Lemma second_row_report : report_of second_row = Fails (Said 3 "n|row:2, col:2, c:""x""| : format error").
Proof. vm_compute. reflexivity. Qed.
Lemma cut_name_report : report_of cut_name = Fails (Said 0 "n<nil> : no text").
Proof. vm_compute. reflexivity. Qed.

Lemma runes_second : second_row = encode [32; 10; 120]%Z.
Proof. reflexivity. Qed.

(** the usual place of the letter is the first column *)
Lemma second_row_usual a b p : Forall good (a ++ b) -> second_row = encode (a ++ b) -> 3 = size a ->
  usual_place (o_print plain_others) a p -> exists q, p = ("|row:2, col:1" ++ q)%string.
Proof.
  intros G E S U.
  assert (G3 : Forall good [32; 10; 120]%Z) by (repeat constructor; discriminate).
  assert (W : a ++ b = [32; 10; 120]%Z).
  { apply encode_inj; [exact G|exact G3|rewrite <- runes_second; congruence]. }
  assert (Ea : a = [32; 10; 120]%Z).
  { apply (size_same a b _ []); [rewrite app_nil_r; exact W|rewrite <- S; reflexivity]. }
  clear S G E W. destruct U as [x y c Ea' Hx Hy ->]. rewrite Ea in Ea'. clear Ea a b.
  destruct x as [|x0 [|x1 [|x2 x]]].
  - exfalso. destruct y as [|y0 [|y1 y]]; cbn in Ea'; try discriminate.
    injection Ea' as _ <- _. apply Hy. right. left. reflexivity.
  - exfalso. destruct Hx as [|[l Hx]]; [discriminate|]. injection Ea' as <- _. destruct l as [|? [|? l]]; discriminate.
  - destruct y as [|y0 y].
    + cbn in Ea'. injection Ea' as <- <- <-. eexists. vm_compute. reflexivity.
    + exfalso. cbn in Ea'. injection Ea' as _ _ _ X. destruct y; discriminate.
  - exfalso. cbn in Ea'. injection Ea' as _ _ _ X. destruct x, y; discriminate.
Qed.
Lemma usual_refuted : exists e o d at_ m, string_report e o 200 2 d "n" [] = Fails (Said at_ m) /\
  (exists w, Forall good w /\ d = encode w) /\
  forall a b p what, Forall good (a ++ b) -> d = encode (a ++ b) -> at_ = size a -> usual_place (o_print o) a p ->
    m <> ("n" ++ p ++ what)%string.
Proof.
  exists (xenv [] keep), plain_others, second_row. do 2 eexists. split; [exact second_row_report|]. split.
  - exists [32; 10; 120]%Z. split; [repeat constructor; discriminate|reflexivity].
  - intros a b p what G E S U. destruct (second_row_usual a b p G E S U) as [q ->]. cbn. discriminate.
Qed.
Lemma nowhere_refuted : exists e o d at_ m what, string_report e o 200 2 d "n" [] = Fails (Said at_ m) /\
  m = ("n" ++ "<nil>" ++ what)%string.
Proof. exists (xenv [] keep), plain_others, cut_name. do 3 eexists. split; [exact cut_name_report|reflexivity]. Qed.
