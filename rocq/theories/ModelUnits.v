(** A run in other units.  These definitions model no code: they are used in
    the statements of PropUnits.v. *)
From Coq Require Import Reals.
From Verif Require Import Base ModelRun ModelReal ModelMono.

(** Every likelihood multiplied by the exponential of [c], and every parameter
    by [k]. *)
Definition in_units (c k : Z) (r : run) : run :=
  run_by (fun x => x + c) (map (Z.mul k)) r.

Local Open Scope R_scope.
(** What it does to the value of an estimator: a factor and a shift. *)
Definition unit_factor (c k : Z) (e : estimator) : R :=
  match e with
  | CountSamples | Logz => 1
  | Evidence => exp (fval c)
  | RMean | ParamMean _ _ | ParamCred _ _ | RCred _ => IZR k
  | ParamSquaredMean _ => IZR k ^ 2
  end.
Definition unit_shift (c : Z) (e : estimator) : R :=
  match e with Logz => fval c | _ => 0 end.

(** The values of the estimators [l], and their errors, in the other units. *)
Definition convert (c k : Z) (e : estimator) (v : option R) : option R :=
  option_map (fun x => unit_factor c k e * x + unit_shift c e) v.
Definition convert_error (c k : Z) (e : estimator) (v : option R) : option R :=
  option_map (fun x => unit_factor c k e * x) v.
