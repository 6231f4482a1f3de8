(** Concrete addresses of the context tagger. *)
From Coq Require Import Ascii.
From Verif Require Import Base ModelTypes ModelEarley ModelLocal ModelContext SpecContext ProofContext.
Local Open Scope list_scope.

(** an address up to the ? *)
Definition split_uri (s : string) : option (string * string) :=
  if String.prefix "http://" s then Some (fst (cut "?" s), match snd (cut "?" s) with Some q => q | None => ""%string end) else None.
Definition join_uri (a q : string) : string := (a ++ "?" ++ q)%string.
(** a tagger is its address, and the document it gives contains the address *)
Definition tagger_at (s : string) : option string := if String.prefix "http://nowhere" s then None else Some s.
Definition plain_doc (text : string) : res document := Ret (mkDoc text [] []).
Definition tagged_doc (t text : string) : res document := Ret (mkDoc t [] []).
Definition xcontext (flag : string) := context_annotate string string split_uri join_uri tagger_at plain_doc tagged_doc flag.

Lemma uri_query : query "lang=zh&context=old&k=a%3db&token=ab==" [("lang", "zh"); ("context", "old"); ("k", "a=b"); ("token", "ab==")]%string.
Proof.
  assert (P : forall bad s, (forall c, In c (list_ascii_of_string s) -> c <> "%"%char /\ c <> "+"%char /\ ~ In c bad) -> spells bad s s).
  { intros bad s. induction s as [|c s IH]; intros H; [apply sp_nil|]. destruct (H c (or_introl eq_refl)) as (A & B & C).
    apply sp_char; [exact A|exact B|exact C|]. apply IH. intros d Hd. apply H. right. exact Hd. }
  assert (D : forall bad s, forallb (fun c => negb (Ascii.eqb c "%") && negb (Ascii.eqb c "+") && negb (existsb (Ascii.eqb c) bad)) (list_ascii_of_string s) = true ->
              spells bad s s).
  { intros bad s H. apply P. intros c Hc. rewrite forallb_forall in H. specialize (H c Hc). apply andb_prop in H. destruct H as [H H3].
    apply andb_prop in H. destruct H as [H1 H2]. repeat split.
    - intros ->. discriminate.
    - intros ->. discriminate.
    - intros Hb. apply negb_true_iff in H3. assert (E : existsb (Ascii.eqb c) bad = true) by (apply existsb_exists; exists c; split; [exact Hb|apply Ascii.eqb_refl]).
      congruence. }
  apply (q_more "lang=zh" ("lang", "zh")%string).
  { apply (param "lang" "zh"); apply D; reflexivity. }
  apply (q_more "context=old" ("context", "old")%string).
  { apply (param "context" "old"); apply D; reflexivity. }
  apply (q_more "k=a%3db" ("k", "a=b")%string).
  { apply (param "k" "a%3db"); [apply D; reflexivity|]. apply sp_char; [discriminate|discriminate|intros [E|[E|[]]]; discriminate|].
    apply (sp_byte _ "3" "d" 3 13); [apply (hex_dec 3); lia|apply (hex_lower 3); lia|]. apply D. reflexivity. }
  apply q_one. apply (param "token" "ab=="); apply D; reflexivity.
Qed.
Lemma context_asked :
  xcontext "http://h/t?lang=zh&context=old&k=a%3db&token=ab==" "user 7&x=京" "hello" =
  Ret (mkDoc "http://h/t?context=user+7%26x%3D%E4%BA%AC&k=a%3Db&lang=zh&token=ab%3D%3D" [] []).
Proof. vm_compute. reflexivity. Qed.
(** A parameter that is not well-formed is lost. *)
Lemma context_lost : exists a raw,
  split_uri "http://h/t?size=50%&a=1;b=2&lang=zh" = Some (a, raw) /\ raw = "size=50%&a=1;b=2&lang=zh"%string /\
  xcontext "http://h/t?size=50%&a=1;b=2&lang=zh" "x" "hello" = Ret (mkDoc "http://h/t?context=x&lang=zh" [] []).
Proof. exists "http://h/t"%string, "size=50%&a=1;b=2&lang=zh"%string. vm_compute. repeat split. Qed.
