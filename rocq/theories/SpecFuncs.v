(** What the built-in functions give. *)
From Verif Require Import Base ModelTypes ModelText ModelEarley ModelTrees ModelApi ModelQuote ModelSem
     SpecGrammar SpecSem SpecNode.

(** [Sprintf("%v")] of a string is the string; [rcall] runs the function
    registered under a name on the arguments (funcs.go:12-15). *)
Definition registered (show : dval -> string) (rcall : string -> list dval -> res (list dval)) : Prop :=
  (forall s, show (DStr s) = s)
  /\ (forall vs, rcall "fmr.list" vs = Ret [fmr_list vs])
  /\ (forall vs, rcall "fmr.entity" vs = Ret [fmr_entity show vs]).

(** $1, ..., $k *)
Definition positions_to (k : nat) : list arg := map (fun i => Arg "index" (VIdx (Z.of_nat i))) (seq 1 k).

(** The text of a function call. *)
Definition call_text (fn : string) (args : list string) : string := (fn ++ "(" ++ join ", " args ++ ")")%string.

(** The value of an entity of type x: nil when the type is the empty text. *)
Inductive entity_value : string -> list dval -> dval -> Prop :=
| ev_nameless items : entity_value "" items DNil
| ev_bare x : x <> "" -> entity_value x [] (DMap [(x, DNil)])
| ev_items x items : x <> "" -> items <> [] -> entity_value x items (DMap [(x, DList items)]).
