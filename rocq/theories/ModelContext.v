(** The context part of [process] (api.go:186-210): which tagger annotates the text.
    The query strings of package net/url are modelled as in Go 1.19, the version of
    go.mod: what vurl.Query() (ParseQuery with the error dropped), Set and Encode do. *)
From Coq Require Import Ascii.
From Verif Require Import Base ModelTypes ModelEarley ModelLocal.
Local Open Scope list_scope.

(** The value of a hexadecimal digit (url unhex and ishex, used at api.go:199). *)
Definition hex_value (c : ascii) : option nat :=
  let n := nat_of_ascii c in
  if Nat.leb 48 n && Nat.leb n 57 then Some (n - 48)
  else if Nat.leb 97 n && Nat.leb n 102 then Some (n - 87)
  else if Nat.leb 65 n && Nat.leb n 70 then Some (n - 55)
  else None.
(** url.QueryUnescape (used at api.go:199): + is a blank, %XY a byte, any other % an error. *)
Fixpoint unescape (s : string) : option string :=
  match s with
  | EmptyString => Some ""%string
  | String c s' =>
      if Ascii.eqb c "%" then
        match s' with
        | String a (String b s'') =>
            match hex_value a, hex_value b with
            | Some x, Some y => option_map (String (ascii_of_nat (16 * x + y))) (unescape s'')
            | _, _ => None
            end
        | _ => None
        end
      else option_map (String (if Ascii.eqb c "+" then " "%char else c)) (unescape s')
  end.
(** Bytes a query keeps as they are (url shouldEscape for query components, used at api.go:201). *)
Definition kept (c : ascii) : bool :=
  let n := nat_of_ascii c in
  (Nat.leb 48 n && Nat.leb n 57) || (Nat.leb 97 n && Nat.leb n 122) || (Nat.leb 65 n && Nat.leb n 90)
  || Ascii.eqb c "-" || Ascii.eqb c "_" || Ascii.eqb c "." || Ascii.eqb c "~".
(** One digit of %XY (url upperhex, used at api.go:201). *)
Definition hex_digit (n : nat) : ascii := ascii_of_nat (if Nat.ltb n 10 then 48 + n else 55 + n).
(** url.QueryEscape (used at api.go:201). *)
Fixpoint escape (s : string) : string :=
  match s with
  | EmptyString => ""%string
  | String c s' =>
      if kept c then String c (escape s')
      else if Ascii.eqb c " " then String "+" (escape s')
      else String "%" (String (hex_digit (Nat.div (nat_of_ascii c) 16)) (String (hex_digit (Nat.modulo (nat_of_ascii c) 16)) (escape s')))
  end.

(** strings.Cut at a byte (inside ParseQuery, api.go:199): before it, and what follows if it occurs. *)
Fixpoint cut (b : ascii) (s : string) : string * option string :=
  match s with
  | EmptyString => (""%string, None)
  | String c s' => if Ascii.eqb c b then (""%string, Some s') else (String c (fst (cut b s')), snd (cut b s'))
  end.
(** The pieces of a query between the &s (the loop of ParseQuery, api.go:199). *)
Fixpoint pieces (s : string) : list string :=
  match s with
  | EmptyString => [""%string]
  | String c s' =>
      if Ascii.eqb c "&" then ""%string :: pieces s'
      else match pieces s' with [] => [String c ""] | p :: l => String c p :: l end
  end.
(** url.Values (api.go:199): a map from keys to lists of values. *)
Definition values := list (string * list string).
(** m[key] = append(m[key], value) (inside ParseQuery, api.go:199) *)
Fixpoint add_value (m : values) (k v : string) : values :=
  match m with
  | [] => [(k, [v])]
  | (k', vs) :: m' => if String.eqb k' k then (k', vs ++ [v]) :: m' else (k', vs) :: add_value m' k v
  end.
(** One round of ParseQuery's loop (api.go:199): pieces with ; and pieces that cannot be
    unescaped are errors, which Query drops; empty pieces are skipped. *)
Definition add_piece (m : values) (piece : string) : values :=
  if String.eqb piece "" then m
  else match snd (cut ";" piece) with
  | Some _ => m
  | None =>
      match unescape (fst (cut "=" piece)), unescape (match snd (cut "=" piece) with Some v => v | None => ""%string end) with
      | Some k, Some v => add_value m k v
      | _, _ => m
      end
  end.
(** api.go:199 [vurl.Query()] *)
Definition parse_query (q : string) : values := fold_left add_piece (pieces q) [].
(** api.go:200 [c.Set(key, value)] *)
Fixpoint set_value (m : values) (k v : string) : values :=
  match m with
  | [] => [(k, [v])]
  | (k', vs) :: m' => if String.eqb k' k then (k', [v]) :: m' else (k', vs) :: set_value m' k v
  end.
(** sort.Strings on the keys (inside Encode, api.go:201). Keys are distinct, so the
    order of the map and the choice of the algorithm make no difference. *)
Fixpoint insert_key (e : string * list string) (m : values) : values :=
  match m with
  | [] => [e]
  | e' :: m' => if String.leb (fst e) (fst e') then e :: m else e' :: insert_key e m'
  end.
(** The sorted keys with their values (inside Encode, api.go:201). *)
Definition sorted (m : values) : values := fold_right insert_key [] m.
(** The loop of Encode (api.go:201): key=value for every value of every key. *)
Definition assignments (m : values) : list string :=
  flat_map (fun e => map (fun v => (escape (fst e) ++ "=" ++ escape v)%string) (snd e)) m.
(** api.go:201 [c.Encode()] *)
Definition encode_query (m : values) : string := String.concat "&" (assignments (sorted m)).

Section Context.
  (** url.URL without its query, ling's taggers *)
  Variable address tagger : Type.
  (** api.go:195 [url.ParseRequestURI]: the address and its RawQuery, or an error *)
  Variable parse_uri : string -> option (address * string).
  (** api.go:202 [vurl.String()]: the address with a new RawQuery *)
  Variable uri_string : address -> string -> string.
  (** api.go:202 [ling.NewAPITagger] *)
  Variable api_tagger : string -> option tagger.
  (** api.go:188 [NLP().Annotate] and api.go:206 [NLP().AnnotatePro] on a new document
      with the text; NLP itself is in ModelInit.v *)
  Variable annotate_plain : string -> res document.
  Variable annotate_pro : tagger -> string -> res document.
  (** api.go:15 the flag -ctx_tagger *)
  Variable ctx_tagger : string.

  (** api.go:186-210 *)
  Definition context_annotate (ctx text : string) : res document :=
    if String.eqb ctx "" then annotate_plain text
    else if String.eqb ctx_tagger "" then Err
    else match parse_uri ctx_tagger with
    | None => Err
    | Some (a, raw) =>
        match api_tagger (uri_string a (encode_query (set_value (parse_query raw) "context" ctx))) with
        | None => Err
        | Some t => annotate_pro t text
        end
    end.
End Context.
