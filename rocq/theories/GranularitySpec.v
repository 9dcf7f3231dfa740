From Verif Require Import Prelude GranularityModel.

(** Granularities whose explicit sizes are positive and whose blocks are strict. *)
Definition regular (g : granularity) : Prop :=
  match g with
  | PerTensor | PerChannel _ => True
  | PerBlock _ sizes _ strict => strict = true /\ Forall (fun b => 0 < b) sizes
  | PerTile t => Forall (fun b => 0 < b) t
  end.
