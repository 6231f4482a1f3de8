(** Blank and trimmed texts. *)
From Verif Require Import Base ModelText ModelTrees ModelApi.

(** Unicode's White_Space property. *)
Definition white (r : rune) : Prop :=
  In r [9; 10; 11; 12; 13; 32; 133; 160; 5760; 8192; 8193; 8194; 8195; 8196; 8197; 8198; 8199; 8200; 8201; 8202;
        8232; 8233; 8239; 8287; 12288]%Z.

(** A text of white space only. *)
Definition blank (s : string) : Prop := exists l, Forall white l /\ s = encode l.

(** [t] is [text] without the white space around it. *)
Definition trimmed (text t : string) : Prop :=
  (exists a b, blank a /\ blank b /\ text = a ++ t ++ b)%string
  /\ forall r u, white r -> (t <> encode_rune r ++ u /\ t <> u ++ encode_rune r)%string.

(** A parse of another text with the same chart. *)
Definition retext (text : string) (p : parse_t) : parse_t := mkParse text (p_columns p) (p_finals p).
Definition retree (text : string) (q : parse_t * node) : parse_t * node := (retext text (fst q), snd q).
Definition rmap {A B} (f : A -> B) (r : res A) : res B :=
  match r with Ret a => Ret (f a) | Err => Err | Panic => Panic | Fuel => Fuel end.
