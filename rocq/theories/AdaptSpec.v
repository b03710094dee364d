(** What the adaptive flow is specified by: fields reached by steps of a total length. *)
From Coq Require Import Reals.
Local Open Scope R_scope.
Inductive flows {A : Type} (step : R -> A -> A) (a : A) : R -> A -> Prop :=
| flows_none : flows step a 0 a
| flows_step : forall t b dt t', flows step a t b -> t' = t + dt -> flows step a t' (step dt b).
