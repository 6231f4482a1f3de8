(** What a node of the memory model shows. *)
From Verif Require Import Base ModelTypes ModelEarley ModelTrees ModelMutate.

(** The state behind a pointer. *)
Inductive points (m : memory) : sptr -> tstate -> Prop :=
| pt_chart ref s : read m ref = Ret s -> points m (InChart ref) s
| pt_fresh s : points m (Fresh s) s.
(** The tree one sees by following the pointers in [m]. *)
Inductive shows (m : memory) : pnode -> node -> Prop :=
| sh_node p s ps ts : points m p s -> Forall2 (shows m) ps ts -> shows m (PNode p ps) (Node s ts).

(** [m'] differs from [m] at most in the Rb fields of List states, each of which
    holds the body that belongs to its item and length. *)
Definition filled (s s' : tstate) : Prop := s' = s \/ t_type (s_term s) = TList /\ s' = with_list_rb s.
Definition filled_in (m m' : memory) : Prop :=
  Forall2 (fun c c' => c_index c' = c_index c /\ c_token c' = c_token c /\ Forall2 filled (c_states c) (c_states c')) m m'.
