(** The grammar notation, as a relation between what is meant and the runes that
    are written. Nothing here mentions positions, look-ahead or loops. *)
From Verif Require Import Base ModelTypes ModelText ModelEarley.

(** Texts the notation is made of: no undecodable byte and not the replacement
    character, which Go's decoder uses to report one. *)
Definition good (r : rune) : Prop := valid_rune r = true /\ r <> RuneError.

(** White space *)
Definition spaces (w : list rune) : Prop := Forall (fun c => is_space c = true) w.

(** White space and comments: // up to the end of the line, /* up to the first */ *)
Definition closes (w : list rune) : Prop := exists a b, w = a ++ [42; 47]%Z ++ b.
Inductive gap : list rune -> Prop :=
| gap_nil : gap []
| gap_space c w : is_space c = true -> gap w -> gap (c :: w)
| gap_line body w : ~ In 10%Z body -> gap w -> gap ([47; 47]%Z ++ body ++ [10]%Z ++ w)
| gap_block body w : ~ closes body -> gap w -> gap ([47; 42]%Z ++ body ++ [42; 47]%Z ++ w).

(** Decimal digits *)
Definition decimals (ds : list rune) : Prop := Forall (fun d => 48 <= d <= 57)%Z ds.
Definition decimal_value (ds : list rune) : Z := fold_left (fun a d => a * 10 + (d - 48))%Z ds 0%Z.
Definition octal_value (ds : list rune) : Z := fold_left (fun a d => a * 8 + (d - 48))%Z ds 0%Z.

(** The value of an index or a range bound: machine integers, one digit after
    the other, where the value -1 stands for "no digit yet". *)
Definition int64 (z : Z) : Z := ((z + 2 ^ 63) mod 2 ^ 64 - 2 ^ 63)%Z.
Definition machine_value (ds : list rune) : Z :=
  fold_left (fun a d => if Z.eqb a (-1) then d - 48 else int64 (a * 10 + (d - 48)))%Z ds (-1)%Z.
Definition number (ds : list rune) (z : Z) : Prop :=
  decimals ds /\ machine_value ds = z /\ z <> (-1)%Z.

Section Notation_.
  (** Unicode letters and digits *)
  Variables letter digit : rune -> bool.
  (** reading a decimal fraction *)
  Variable scan_float : string -> res bigf.
  (** regular expressions and the names given to them *)
  Variable regexp_ok : string -> bool.
  Variable md5 : string -> string.

  Definition name_first (c : rune) : Prop := letter c = true \/ c = 95%Z.
  Definition name_char (c : rune) : Prop := letter c = true \/ c = 95%Z \/ digit c = true.
  (** names of rules, frames, special terms and flags *)
  Definition name_text (w : list rune) : Prop :=
    match w with [] => False | c :: w' => name_first c /\ Forall name_char w' end.
  (** names of functions: dots inside, no two in a row *)
  Definition func_text (w : list rune) : Prop :=
    match w with
    | [] => False
    | c :: w' => name_first c /\ Forall (fun c => name_char c \/ c = 46%Z) w'
    end /\ ~ exists a b, w = a ++ [46; 46]%Z ++ b.

  (** the characters of a text between quotes *)
  Inductive escape : rune -> rune -> Prop :=
  | esc_bslash : escape 92%Z 92%Z
  | esc_n : escape 110%Z 10%Z
  | esc_t : escape 116%Z 9%Z
  | esc_quote : escape 34%Z 34%Z
  | esc_paren : escape 40%Z 40%Z.
  Inductive spells : list rune -> list rune -> Prop :=
  | spells_nil : spells [] []
  | spells_plain c cs w : c <> 34%Z -> c <> 92%Z -> spells cs w -> spells (c :: cs) (c :: w)
  | spells_escape e c cs w : escape e c -> spells cs w -> spells (c :: cs) (92%Z :: e :: w).

  (** quoted texts: flags, text. Without flags the white space after the quote
      does not belong to the text, and an opening parenthesis must be escaped. *)
  Inductive w_literal : string -> string -> list rune -> Prop :=
  | lit_plain sp cs w :
      spaces sp -> spells cs w ->
      match w with [] => True | c :: _ => is_space c = false /\ c <> 40%Z end ->
      w_literal "" (encode cs) ([34]%Z ++ sp ++ w ++ [34]%Z)
  | lit_flags sp1 sp2 sp3 fl cs w :
      spaces sp1 -> spaces sp2 -> spaces sp3 -> name_text fl -> spells cs w ->
      w_literal (encode fl) (encode cs)
        ([34]%Z ++ sp1 ++ [40]%Z ++ sp2 ++ [63]%Z ++ sp3 ++ fl ++ [41]%Z ++ w ++ [34]%Z).

  (** integer arguments: decimal, or octal after a leading zero, in which case
      everything from the first 8 or 9 on is ignored *)
  Inductive int_literal : list rune -> Z -> Prop :=
  | il_decimal d ds :
      decimals (d :: ds) -> d <> 48%Z \/ ds = [] -> int_literal (d :: ds) (decimal_value (d :: ds))
  | il_octal ds rest :
      Forall (fun d => 48 <= d <= 55)%Z ds ->
      match rest with [] => True | c :: _ => (56 <= c <= 57)%Z end ->
      Forall (fun c => digit c = true) rest -> ds ++ rest <> [] ->
      int_literal (48%Z :: ds ++ rest) (octal_value ds).
  Inductive float_literal : list rune -> string -> bigf -> Prop :=
  | fl_intro ds ds' sign f :
      Forall (fun c => digit c = true) ds -> Forall (fun c => digit c = true) ds' ->
      scan_float (sign ++ encode (ds ++ [46]%Z ++ ds'))%string = Ret f ->
      float_literal (ds ++ [46]%Z ++ ds') sign f.

  (** semantic functions *)
  Inductive w_arg : arg -> list rune -> Prop :=
  | wa_context : w_arg (Arg "context" (VStr "@")) [64]%Z
  | wa_index ds z : number ds z -> w_arg (Arg "index" (VIdx z)) ([36]%Z ++ ds)
  | wa_string fl t w : w_literal fl t w -> w_arg (Arg "string" (VStr t)) w
  | wa_int ds z : int_literal ds z -> w_arg (Arg "int" (VInt z)) ds
  | wa_negative ds z : int_literal ds z -> w_arg (Arg "int" (VInt (- z))) ([45]%Z ++ ds)
  | wa_float d ds f :
      digit d = true -> float_literal (d :: ds) "" f -> w_arg (Arg "float" (VFloat f)) (d :: ds)
  | wa_negative_float ds f :
      float_literal ds "-" f -> w_arg (Arg "float" (VFloat f)) ([45]%Z ++ ds)
  | wa_func f w : w_fmr f w -> w_arg (Arg "func" (VFunc f)) w
  with w_args : list arg -> list rune -> Prop :=
  | was_last a sp1 w sp2 : spaces sp1 -> w_arg a w -> spaces sp2 -> w_args [a] (sp1 ++ w ++ sp2)
  | was_more a sp1 w sp2 l w' :
      spaces sp1 -> w_arg a w -> spaces sp2 -> w_args l w' ->
      w_args (a :: l) (sp1 ++ w ++ sp2 ++ [44]%Z ++ w')
  with w_fmr : fmr -> list rune -> Prop :=
  | wf_intro fn sp l w :
      func_text fn -> spaces sp -> w_args l w ->
      w_fmr (FMR (encode fn) l) (fn ++ sp ++ [40]%Z ++ w ++ [41]%Z).

  (** ranges *)
  Inductive w_range : meta -> list rune -> Prop :=
  | wr_none : w_range MNil []
  | wr_range lo hi ds ds' sp1 sp2 sp3 sp4 :
      number ds lo -> number ds' hi -> (lo <= hi)%Z ->
      spaces sp1 -> spaces sp2 -> spaces sp3 -> spaces sp4 ->
      w_range (MMap (Some lo) (Some hi))
        ([123]%Z ++ sp1 ++ ds ++ sp2 ++ [44]%Z ++ sp3 ++ ds' ++ sp4 ++ [125]%Z).

  (** terms; the second argument lists the regular expressions they introduce *)
  Inductive w_term : term -> list (string * string) -> list rune -> Prop :=
  | wt_nonterminal x :
      name_text x -> w_term (mkTerm (encode x) TNonterminal MNil) [] ([60]%Z ++ x ++ [62]%Z)
  | wt_text t w : w_literal "" t w -> w_term (mkTerm t TTerminal MNil) [] w
  | wt_flagged fl t w :
      w_literal fl t w -> fl <> ""%string -> w_term (mkTerm t TTerminal (MStr fl)) [] w
  | wt_any m w sp1 sp2 sp3 :
      spaces sp1 -> spaces sp2 -> spaces sp3 -> w_range m w ->
      w_term (mkTerm "any" TAny m) []
        ([40]%Z ++ sp1 ++ [97; 110; 121]%Z ++ sp2 ++ w ++ sp3 ++ [41]%Z)
  | wt_list x m w sp1 sp2 sp3 sp4 :
      name_text x -> spaces sp1 -> spaces sp2 -> spaces sp3 -> spaces sp4 -> w_range m w ->
      w_term (mkTerm (encode x) TList m) []
        ([40]%Z ++ sp1 ++ [108; 105; 115; 116]%Z ++ sp2 ++ [60]%Z ++ x ++ [62]%Z ++ sp3 ++ w
         ++ sp4 ++ [41]%Z)
  | wt_regexp sp c cs h :
      spaces sp -> is_space c = false -> ~ In 96%Z (c :: cs) ->
      regexp_ok (encode (c :: cs)) = true -> 16 <= String.length (md5 (encode (c :: cs))) ->
      h = substring 0 16 (md5 (encode (c :: cs))) ->
      w_term (mkTerm h TNonterminal MNil) [(h, encode (c :: cs))] ([96]%Z ++ sp ++ c :: cs ++ [96]%Z).

  Inductive w_terms : list term -> list (string * string) -> list rune -> Prop :=
  | wts_last t re w g : w_term t re w -> gap g -> w_terms [t] re (w ++ g)
  | wts_more t re w g ts re' w' :
      w_term t re w -> gap g -> w_terms ts re' w' -> w_terms (t :: ts) (re ++ re') (w ++ g ++ w').

  (** alternatives *)
  Inductive w_body : rulebody -> list (string * string) -> list rune -> Prop :=
  | wb_plain ts re w : w_terms ts re w -> w_body (mkRb ts None) re w
  | wb_func ts re w sp1 f wf sp2 g :
      w_terms ts re w -> spaces sp1 -> w_fmr f wf -> spaces sp2 -> gap g ->
      w_body (mkRb ts (Some f)) re (w ++ [123]%Z ++ sp1 ++ wf ++ sp2 ++ [125]%Z ++ g).
  Inductive w_bodies : list rulebody -> list (string * string) -> list rune -> Prop :=
  | wbs_last b re w : w_body b re w -> w_bodies [b] re w
  | wbs_more b re w g l re' w' :
      w_body b re w -> gap g -> w_bodies l re' w' ->
      w_bodies (b :: l) (re ++ re') (w ++ [124]%Z ++ g ++ w').

  (** rules and frames *)
  Record item := mkItem { it_frame : bool; it_name : string; it_bodies : list rulebody }.
  Inductive w_item : item -> list (string * string) -> list rune -> Prop :=
  | wi_rule x g1 g2 l re w :
      name_text x -> gap g1 -> gap g2 -> w_bodies l re w ->
      w_item (mkItem false (encode x) l) re
        ([60]%Z ++ x ++ [62]%Z ++ g1 ++ [61]%Z ++ g2 ++ w ++ [59]%Z)
  | wi_frame x g1 g2 l re w :
      name_text x -> gap g1 -> gap g2 -> w_bodies l re w ->
      w_item (mkItem true (encode x) l) re
        ([91]%Z ++ x ++ [93]%Z ++ g1 ++ [61]%Z ++ g2 ++ w ++ [59]%Z).
  Inductive w_items : list item -> list (string * string) -> list rune -> Prop :=
  | wis_end g : gap g -> w_items [] [] g
  | wis_item g it re w l re' w' :
      gap g -> w_item it re w -> w_items l re' w' ->
      w_items (it :: l) (re ++ re') (g ++ w ++ w').

  (** a whole text: #include directives, then rules and frames *)
  Inductive w_file : list string -> list item -> list (string * string) -> list rune -> Prop :=
  | wfile_rules its re w : w_items its re w -> w_file [] its re w
  | wfile_include g sp1 sp2 fl p w ps its re w' :
      gap g -> spaces sp1 -> spaces sp2 -> w_literal fl p w -> w_file ps its re w' ->
      w_file (p :: ps) its re
        (g ++ [35]%Z ++ sp1 ++ [105; 110; 99; 108; 117; 100; 101]%Z ++ sp2 ++ w ++ w').
End Notation_.

(** A line comment that no newline ends. *)
Definition open_comment (w : list rune) : Prop :=
  exists a b, w = a ++ [47; 47]%Z ++ b /\ ~ In 10%Z b.

(** The maps a list of rules and frames denotes: a later alternative replaces an
    earlier one of the same name and hash. *)
Section Denotes.
  Variable hash : rulebody -> N.
  Definition written (l : list item) (frame : bool) (x : string) : list rulebody :=
    flat_map (fun it => if Bool.eqb (it_frame it) frame && String.eqb (it_name it) x
                        then it_bodies it else []) l.
  Fixpoint lookup_N {A} (m : list (N * A)) (k : N) : option A :=
    match m with
    | [] => None
    | (k', a) :: m' => if N.eqb k' k then Some a else lookup_N m' k
    end.
  Definition denotes (l : list item) (frame : bool) (m : grammar_rules) : Prop :=
    NoDup (map fst m) /\
    (forall x, written l frame x = [] -> lookup m x = None) /\
    (forall x, written l frame x <> [] ->
       exists r, lookup m x = Some r /\ r_name r = x /\ NoDup (map fst (r_body r)) /\
         forall h, lookup_N (r_body r) h = find (fun b => N.eqb (hash b) h) (rev (written l frame x))).
  (** the same for the regular expressions *)
  Definition denotes_regexps (re : list (string * string)) (m : list (string * string)) : Prop :=
    NoDup (map fst m) /\
    forall h, lookup m h = option_map snd (find (fun kv => String.eqb (fst kv) h) (rev re)).
End Denotes.

(** What the Unicode tables above U+00FF are known to satisfy: the classes are disjoint. *)
Definition unicode_tables (letter_hi digit_hi : rune -> bool) : Prop :=
  forall r, (255 < r)%Z ->
    (letter_hi r = true -> digit_hi r = false /\ is_space r = false) /\
    (digit_hi r = true -> is_space r = false).
