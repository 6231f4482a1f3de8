(** Specification notions about terms and semantic functions. *)
From Verif Require Import Base ModelTypes.

(** A function whose arguments carry the kind of value their type tag announces
    ("context" arguments always carry the text "@"). *)
Inductive wt_fmr : fmr -> Prop :=
| wt_FMR fn args : Forall wt_arg args -> wt_fmr (FMR fn args)
with wt_arg : arg -> Prop :=
| wt_string s : wt_arg (Arg "string" (VStr s))
| wt_int z : wt_arg (Arg "int" (VInt z))
| wt_float f : wt_arg (Arg "float" (VFloat f))
| wt_index i : wt_arg (Arg "index" (VIdx i))
| wt_func f : wt_fmr f -> wt_arg (Arg "func" (VFunc f))
| wt_context : wt_arg (Arg "context" (VStr "@")).

Definition wt_ofmr (f : option fmr) : Prop := forall g, f = Some g -> wt_fmr g.
Definition wt_rb (b : rulebody) : Prop := wt_ofmr (rb_f b).
Definition wt_orb (b : option rulebody) : Prop := forall r, b = Some r -> wt_rb r.
