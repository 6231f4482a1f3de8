(** Model of /repo/funcs.go: calling registered functions. *)
From Verif Require Import Base ModelTypes ModelText ModelSem.

(** funcs.go:17-27 [Call]; [rcall] is goutil.Call on the table of functions
    (reflection), external: the results of the function of that name. *)
Definition Call (rcall : string -> list dval -> res (list dval)) (fn : string) (args : list dval) : res dval :=
  ret <- rcall fn args ;;
  match ret with
  | [] => Ret DNil
  | v :: _ => Ret v
  end.
