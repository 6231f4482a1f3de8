(** Outcomes of Go computations and small list helpers shared by the model. *)
From Coq Require Export String ZArith NArith Bool Arith Lia.
From Coq Require Export List.
Export ListNotations.
Open Scope string_scope.
Open Scope list_scope.

(** Outcome of a Go call: a value, an error return, a run-time panic
    (nil dereference, index out of range), or "fuel exhausted".
    [Fuel] is only produced by loops that ran out of the model's step budget;
    "terminates" is stated as: some budget gives a result other than [Fuel]. *)
Inductive res (A : Type) : Type :=
| Ret (a : A)
| Err
| Panic
| Fuel.
Arguments Ret {A} a.
Arguments Err {A}.
Arguments Panic {A}.
Arguments Fuel {A}.

Definition bind {A B} (x : res A) (f : A -> res B) : res B :=
  match x with
  | Ret a => f a
  | Err => Err
  | Panic => Panic
  | Fuel => Fuel
  end.

Notation "x <- e ;; k" := (bind e (fun x => k))
  (at level 100, e at next level, right associativity).
Notation "' p <- e ;; k" := (bind e (fun p => k))
  (at level 100, p pattern, e at next level, right associativity).

(** Go slice/array indexing [l[i]]: panics when out of range. *)
Definition idx {A} (l : list A) (i : nat) : res A :=
  match nth_error l i with
  | Some a => Ret a
  | None => Panic
  end.

(** In-place update of element [i] of a slice of pointers. *)
Fixpoint update {A} (l : list A) (i : nat) (a : A) : list A :=
  match l, i with
  | [], _ => []
  | _ :: l', O => a :: l'
  | x :: l', S i' => x :: update l' i' a
  end.

(** Lookup in a Go map represented as an association list. *)
Fixpoint lookup {A} (m : list (string * A)) (k : string) : option A :=
  match m with
  | [] => None
  | (k', a) :: m' => if String.eqb k' k then Some a else lookup m' k
  end.
