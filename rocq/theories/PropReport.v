(** C60: what the errors of GrammarFromString and GrammarFromFile tell. *)
From Verif Require Import Base ModelTypes ModelText ModelQuote ModelReader ModelEarley ModelGrammar ModelReport
  SpecNotation SpecConstruct SpecReport ProofReportPlace ProofReportLocal ExamplesGrammar ExamplesReport.
Local Open Scope list_scope.

(** The reader with positions and messages has the outcomes of the reader of C23 to C26. *)
Theorem C60_same_outcome : forall e o fuel depth d name gt,
  agrees (string_report e o fuel depth d name gt) (from_string e fuel depth d name gt).
Proof. exact string_agrees. Qed.
Print Assumptions C60_same_outcome.

Theorem C60_same_outcome_file : forall e o fuel depth file gt,
  agrees (file_report e o fuel depth file gt) (from_file e fuel depth file gt).
Proof. exact file_agrees. Qed.
Print Assumptions C60_same_outcome_file.

Example C60_same_outcome_example :
  from_string (xenv [] keep) 200 2 "<a> = 7" "n" [] = Err
  /\ (exists g, string_report (xenv [] keep) plain_others 200 2 "<a> = ""b"";" "n" [] = Done g)
  /\ file_report (xenv [("d/b", "<a> = 7")] keep) plain_others 200 3 "d/b" []
     = Fails (Said 6 "d/b|row:1, col:6, c:"" ""| :invalid term char").
Proof. vm_compute. split; [reflexivity|]. split; [eexists; reflexivity|reflexivity]. Qed.

(** An error names the file it is met in, a place up to which that file was read, and an
    objection that fits this place; or it was passed on from another package. *)
Theorem C60_place : forall e o fuel depth d name gt m, string_report e o fuel depth d name gt = Fails m ->
  exists file text, (file = name /\ text = d \/ e_read e file = Ret text) /\ tells e o file text m.
Proof. exact string_tells. Qed.
Print Assumptions C60_place.

Theorem C60_place_file : forall e o fuel depth file gt m, file_report e o fuel depth file gt = Fails m ->
  (exists f text, e_read e f = Ret text /\ tells e o f text m) \/ (e_read e file = Err /\ m = Passed (o_file o file)).
Proof. exact file_tells. Qed.
Print Assumptions C60_place_file.

Example C60_place_example :
  report_of "<a> = <b>
 ""x"" | 5;" = Fails (Said 17 "n|row:2, col:8, c:"" ""| :invalid term char")
  /\ report_of "<a> = (list<b>{3,2});" = Fails (Said 18 "n|row:1, col:18, c:""2""| : max:2 less than min:3")
  /\ report_of "<a> = ""b\q"";" = Fails (Said 10 "n|row:1, col:10, c:""q""| : unexpected escape string")
  /\ report_of "<a> = <b> {f($1, 2" = Fails (Said 18 "n|row:1, col:18, c:""2""| : unexpected semantic args")
  /\ report_of "/x" = Fails (Said 1 "n|row:1, col:1, c:""/""| : invalid char x")
  /\ report_of "<é> = ""é"" é" = Fails (Said 14 "n|row:1, col:14, c:""é""| :expected "";"", got ""é""")
  /\ string_report (xenv [("./b", "<a> = 7")] keep) plain_others 200 3 "#include ""b"";" "n" []
     = Fails (Said 6 "./b|row:1, col:6, c:"" ""| :invalid term char")
  /\ string_report (xenv [] keep) plain_others 200 3 "#include ""c"";" "n" [] = Fails (Passed "./c").
Proof. vm_compute. repeat split. Qed.

(** The error depends on the text up to the place it names and on the next character: with
    any other bytes after them it is the same. *)
Theorem C60_rest_irrelevant : forall e o fuel depth a c b t name gt m,
  Forall good (a ++ c :: b) ->
  ~ In r_hash (a ++ c :: b) \/ (forall f, e_read e f = Err) ->
  string_report e o fuel depth (encode (a ++ c :: b)) name gt = Fails (Said (size a) m) ->
  string_report e o fuel depth (encode (a ++ [c]) ++ t)%string name gt = Fails (Said (size a) m).
Proof. exact rest_same. Qed.
Print Assumptions C60_rest_irrelevant.

(** So no text that goes on from there is a grammar. *)
Theorem C60_no_way_on : forall e fuel depth a c b t name gt o m,
  Forall good (a ++ c :: b) ->
  ~ In r_hash (a ++ c :: b) \/ (forall f, e_read e f = Err) ->
  string_report e o fuel depth (encode (a ++ c :: b)) name gt = Fails (Said (size a) m) ->
  from_string e fuel depth (encode (a ++ [c]) ++ t)%string name gt = Err.
Proof. exact no_way_on. Qed.
Print Assumptions C60_no_way_on.

Example C60_rest_example :
  Forall good (start_seven ++ 55%Z :: [59%Z]) /\ ~ In r_hash (start_seven ++ 55%Z :: [59%Z])
  /\ report_of (encode (start_seven ++ 55%Z :: [59%Z])) = Fails (Said (size start_seven) "n|row:1, col:6, c:"" ""| :invalid term char")
  /\ report_of (encode (start_seven ++ [55%Z]) ++ String (of_byte 255) "<b> =")
     = Fails (Said (size start_seven) "n|row:1, col:6, c:"" ""| :invalid term char")
  /\ (exists g, report_of (encode start_seven ++ """x"";") = Done g).
Proof.
  split; [repeat constructor; discriminate|]. split; [vm_compute; intuition discriminate|].
  split; [vm_compute; reflexivity|]. split; [vm_compute; reflexivity|]. eexists. vm_compute. reflexivity.
Qed.

(** The column of the first character in a later row is 2: rows and columns are not those
    an editor shows. *)
Theorem C60_usual_place_refuted : exists e o d at_ m, string_report e o 200 2 d "n" [] = Fails (Said at_ m) /\
  (exists w, Forall good w /\ d = encode w) /\
  forall a b p what, Forall good (a ++ b) -> d = encode (a ++ b) -> at_ = size a -> usual_place (o_print o) a p ->
    m <> ("n" ++ p ++ what)%string.
Proof. exact usual_refuted. Qed.
Print Assumptions C60_usual_place_refuted.

(** In a text that is not UTF-8 the place may be lost. *)
Theorem C60_some_place_refuted : exists e o d at_ m what, string_report e o 200 2 d "n" [] = Fails (Said at_ m) /\
  m = ("n" ++ "<nil>" ++ what)%string.
Proof. exact nowhere_refuted. Qed.
Print Assumptions C60_some_place_refuted.

Example C60_refuted_example :
  report_of second_row = Fails (Said 3 "n|row:2, col:2, c:""x""| : format error")
  /\ report_of "x" = Fails (Said 1 "n|row:1, col:1, c:""x""| : format error")
  /\ report_of "
x" = Fails (Said 2 "n|row:1, col:2, c:""x""| : format error")
  /\ report_of cut_name = Fails (Said 0 "n<nil> : no text")
  /\ usual_place (o_print plain_others) [32; 10; 120]%Z "|row:2, col:1, c:""x""|".
Proof.
  repeat (split; [vm_compute; reflexivity|]).
  apply (usual _ _ _ [32; 10]%Z [] 120%Z); [reflexivity|right; exists [32%Z]; reflexivity|intros []|vm_compute; reflexivity].
Qed.
