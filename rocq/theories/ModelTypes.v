(** Model of /repo/types.go and /repo/types_util.go: terms, rule bodies,
    semantic functions, and their Equal methods. *)
From Verif Require Import Base.

(** types.go:77-88 [TermType] *)
Inductive ttype := TEOF | TNonterminal | TTerminal | TAny | TList.

(** == on types.go:77 [TermType] *)
Definition ttype_eqb (a b : ttype) : bool :=
  match a, b with
  | TEOF, TEOF | TNonterminal, TNonterminal | TTerminal, TTerminal
  | TAny, TAny | TList, TList => true
  | _, _ => false
  end.

(** types.go:94 [Term.Meta interface{}]. The code stores three kinds of value:
    nil, a string (terminal flags, cfgrammar.go:205) or a [map[string]int]
    (ranges, cfgrammar_special.go:32-46). The map is represented by its values
    at the only two keys the code ever writes or reads, "min" and "max";
    [MMap None None] is the empty non-nil map. *)
Inductive meta :=
| MNil
| MStr (s : string)
| MMap (lo hi : option Z).

(** types.go:90-95 [Term]. *)
Record term := mkTerm { t_value : string; t_type : ttype; t_meta : meta }.

(** The value of a *big.Float, up to Cmp: mantissa * 2^exponent in a canonical
    representation, so that Cmp = 0 iff the representations coincide.
    Simplification: the sign of zero is not represented.
    (types.go:109, cfgrammar_fmr.go:159) *)
Inductive bigf := BigF (mant expo : Z).

(** types.go:106-116 [Arg] and [FMR]. [Arg.Value] is an interface: the
    constructors of [argval] are the dynamic types the code stores there;
    [VOther] stands for any other dynamic type (local_grammar.go:65 stores
    arbitrary JSON values). Nil *Arg pointers and nil *FMR pointers inside an
    Arg are never created by the code and are not represented. *)
Inductive fmr : Type :=
| FMR (fn : string) (args : list arg)
with arg : Type :=
| Arg (ty : string) (v : argval)
with argval : Type :=
| VStr (s : string)
| VInt (z : Z)
| VFloat (f : bigf)
| VIdx (i : Z)
| VFunc (f : fmr)
| VOther (tag : N).

(** types.go:114 FMR.Fn *)
Definition f_fn (f : fmr) : string := match f with FMR fn _ => fn end.
(** types.go:115 FMR.Args *)
Definition f_args (f : fmr) : list arg := match f with FMR _ a => a end.
(** types.go:108 Arg.Type *)
Definition a_type (a : arg) : string := match a with Arg t _ => t end.
(** types.go:109 Arg.Value *)
Definition a_value (a : arg) : argval := match a with Arg _ v => v end.

(** types.go:70-74 [RuleBody]; [None] is a nil *FMR. *)
Record rulebody := mkRb { rb_terms : list term; rb_f : option fmr }.

(** types.go:64-68 [Rule]; the Body map as an association list from hash to body. *)
Record rule := mkRule { r_name : string; r_body : list (N * rulebody) }.

(** types_util.go:8-45 [metaEqual]. For the map case the code compares the
    lengths and looks every key of the first map up in the second one. *)
Definition map_len (lo hi : option Z) : nat :=
  (match lo with Some _ => 1 | None => 0 end) + (match hi with Some _ => 1 | None => 0 end).
(** types_util.go:22-32: one key of the first map *)
Definition key_agrees (v w : option Z) : bool :=
  match v, w with
  | None, _ => true
  | Some a, Some b => Z.eqb a b
  | Some _, None => false
  end.
(** types_util.go:8-45 [metaEqual] *)
Definition meta_equal (m1 m2 : meta) : bool :=
  match m1, m2 with
  | MNil, MNil => true
  | MMap lo1 hi1, MMap lo2 hi2 =>
      Nat.eqb (map_len lo1 hi1) (map_len lo2 hi2)
      && (key_agrees lo1 lo2 && key_agrees hi1 hi2)
  | MStr s1, MStr s2 => String.eqb s1 s2
  | _, _ => false
  end.

(** types_util.go:48-59 [Term.Equal] on non-nil terms. *)
Definition term_equal (t t1 : term) : bool :=
  if negb (String.eqb (t_value t) (t_value t1)) || negb (ttype_eqb (t_type t) (t_type t1))
  then false
  else meta_equal (t_meta t) (t_meta t1).

(** big.Float.Cmp gives 0 (types_util.go:114) *)
Definition bigf_cmp_eq (x y : bigf) : bool :=
  match x, y with BigF m e, BigF m' e' => Z.eqb m m' && Z.eqb e e' end.

(** types_util.go:81-132 [FMR.Equal] on non-nil functions.
    [fmr_equal f g] is [f.Equal(g)] and [fmr_equal_rev f g] is [g.Equal(f)]:
    the code loops over the arguments of its parameter and, for nested
    functions, calls Equal with the roles swapped (line 126). *)
Fixpoint fmr_equal (f g : fmr) {struct f} : bool :=
  match f, g with
  | FMR fn1 args1, FMR fn2 args2 =>
      if negb (String.eqb fn1 fn2) then false else
      if negb (Nat.eqb (length args1) (length args2)) then false else
      (fix go (l1 l2 : list arg) {struct l1} : bool :=
         match l1, l2 with
         | Arg ty1 v1 :: l1', Arg ty2 v2 :: l2' =>
             if negb (String.eqb ty2 ty1) then false else
             (if String.eqb ty2 "string" then
                match v2, v1 with VStr s1, VStr s2 => String.eqb s1 s2 | _, _ => false end
              else if String.eqb ty2 "int" then
                match v2, v1 with VInt a, VInt b => Z.eqb a b | _, _ => false end
              else if String.eqb ty2 "float" then
                match v2, v1 with VFloat a, VFloat b => bigf_cmp_eq a b | _, _ => false end
              else if String.eqb ty2 "index" then
                match v2, v1 with VIdx a, VIdx b => Z.eqb a b | _, _ => false end
              else if String.eqb ty2 "func" then
                match v2, v1 with VFunc a, VFunc b => fmr_equal_rev b a | _, _ => false end
              else true)
             && go l1' l2'
         | _, _ => true
         end) args1 args2
  end
with fmr_equal_rev (f g : fmr) {struct f} : bool :=
  match f, g with
  | FMR fn1 args1, FMR fn2 args2 =>
      if negb (String.eqb fn2 fn1) then false else
      if negb (Nat.eqb (length args2) (length args1)) then false else
      (fix go (l1 l2 : list arg) {struct l1} : bool :=
         match l1, l2 with
         | Arg ty1 v1 :: l1', Arg ty2 v2 :: l2' =>
             if negb (String.eqb ty1 ty2) then false else
             (if String.eqb ty1 "string" then
                match v1, v2 with VStr s1, VStr s2 => String.eqb s1 s2 | _, _ => false end
              else if String.eqb ty1 "int" then
                match v1, v2 with VInt a, VInt b => Z.eqb a b | _, _ => false end
              else if String.eqb ty1 "float" then
                match v1, v2 with VFloat a, VFloat b => bigf_cmp_eq a b | _, _ => false end
              else if String.eqb ty1 "index" then
                match v1, v2 with VIdx a, VIdx b => Z.eqb a b | _, _ => false end
              else if String.eqb ty1 "func" then
                match v1, v2 with VFunc a, VFunc b => fmr_equal a b | _, _ => false end
              else true)
             && go l1' l2'
         | _, _ => true
         end) args1 args2
  end.

(** types_util.go:81-87: the nil cases of [FMR.Equal]. *)
Definition ofmr_equal (f g : option fmr) : bool :=
  match f, g with
  | None, None => true
  | Some a, Some b => fmr_equal a b
  | _, _ => false
  end.

(** types_util.go:72-76: position-wise comparison of the term lists; the loop
    runs over the parameter's terms and indexes the receiver's. *)
Fixpoint terms_equal (rb_ts r_ts : list term) : bool :=
  match rb_ts, r_ts with
  | t :: ts, t' :: ts' => if negb (term_equal t t') then false else terms_equal ts ts'
  | _, _ => true
  end.

(** types_util.go:62-78 [RuleBody.Equal]: [rb_equal r rb] is [r.Equal(rb)]. *)
Definition rb_equal (r rb : rulebody) : bool :=
  if negb (Nat.eqb (length (rb_terms rb)) (length (rb_terms r))) then false else
  if negb (terms_equal (rb_terms rb) (rb_terms r)) then false else
  ofmr_equal (rb_f r) (rb_f rb).

(** types_util.go:63-68: the nil cases of [RuleBody.Equal] *)
Definition orb_equal (r rb : option rulebody) : bool :=
  match r, rb with
  | None, None => true
  | Some a, Some b => rb_equal a b
  | _, _ => false
  end.
