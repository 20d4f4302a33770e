(** Model of the weights (ns_run_utils.py) and of estimators.py, over the
    real numbers. *)
From Coq Require Export Reals.
From Verif Require Import Base ModelRun.
Local Open Scope R_scope.

(** The real value of a finite float, given in units of 2^-1074. *)
Definition funit : R := / 2 ^ 1074.
Definition fval (z : Z) : R := IZR z * funit.

(** numpy arithmetic on two arrays, element by element. *)
Definition map2 {A B C} (f : A -> B -> C) (a : list A) (b : list B) : list C :=
  map (fun p => f (fst p) (snd p)) (combine a b).

(** np.sum, np.cumsum, max *)
Definition rsum (l : list R) : R := fold_right Rplus 0 l.
Fixpoint cumsum_from (s : R) (l : list R) : list R :=
  match l with [] => [] | x :: t => (s + x) :: cumsum_from (s + x) t end.
Definition cumsum (l : list R) : list R := cumsum_from 0 l.
Definition rmax (l : list R) : R :=
  match l with [] => 0 | x :: t => fold_right Rmax x t end.

(** scipy.special.logsumexp *)
Definition lse (l : list R) : R := ln (rsum (map exp l)).

(** ns_run_utils.py:408-426 log_subtract *)
Definition log_subtract (a b : R) : R := a + ln (1 - exp (b - a)).

(** ns_run_utils.py:368-405 get_logx.  [sim] is [Some us] for simulate=True,
    where [us] are the numbers drawn by np.random.random. *)
Definition get_logx (nlive : list Z) (sim : option (list R)) : res (list R) :=
  match nlive with
  | [] => Raise ValueError                     (* min of an empty array *)
  | _ =>
      let! _ := assertb (0 <? min_list nlive)%Z in
      Ok (cumsum match sim with
                 | Some us => map2 (fun u n => ln u / IZR n) us nlive
                 | None => map (fun n => -1 * / IZR n) nlive
                 end)
  end.

(** ns_run_utils.py:320-335: log weights without the likelihoods, for at least
    two samples.  [combine] stops at the end of [logx[2:]], so it pairs
    [logx[:-2]] with it. *)
Definition trapezium (logx : list R) : list R :=
  match logx with
  | x0 :: x1 :: rest =>
      log_subtract 0 (lse [x0; x1] - ln 2)
      :: map (fun d => d - ln 2) (map2 log_subtract logx rest)
      ++ [lse [nth (length logx - 2) logx 0; nth (length logx - 1) logx 0] - ln 2]
  | _ => []
  end.

(** ns_run_utils.py:298-343 get_logw.  With one sample [logx[1]] raises
    IndexError, and the logl is returned.  Runs whose logl and nlive_array
    differ in length (rejected by check_ns_run) raise ValueError here; the code
    raises ValueError or IndexError. *)
Definition get_logw (r : run) (sim : option (list R)) : res (list R) :=
  let! logx := get_logx (nlive_array r) sim in
  let lg := map fval (logl r) in
  if (length logx =? length lg)%nat then
    if (length lg =? 1)%nat then Ok lg
    else Ok (map2 Rplus (trapezium logx) lg)
  else Raise ValueError.

(** ns_run_utils.py:346-365 get_w_rel *)
Definition rel (logw : list R) : list R := map (fun x => exp (x - rmax logw)) logw.
Definition get_w_rel (r : run) (sim : option (list R)) : res (list R) :=
  let! logw := get_logw r sim in Ok (rel logw).

(** ** estimators.py

    [lw] is the optional argument logw. *)
Definition logw_of (r : run) (lw : option (list R)) (sim : option (list R)) : res (list R) :=
  match lw with Some l => Ok l | None => get_logw r sim end.

(** [theta[:, k]]; negative indexes count from the end. *)
Definition column (th : list (list Z)) (k : Z) : res (list R) :=
  let d := Z.of_nat (length (hd [] th)) in
  if ((- d <=? k) && (k <? d))%Z%bool
  then Ok (map (fun row => fval (nth (Z.to_nat (if k <? 0 then k + d else k)%Z) row 0%Z)) th)
  else Raise IndexError.

(** [np.sqrt(np.sum(theta ** 2, axis=1))] *)
Definition radii (th : list (list Z)) : list R :=
  map (fun row => sqrt (rsum (map (fun z => fval z ^ 2) row))) th.

(** np.interp at a point, for nondecreasing [xs]. *)
Fixpoint interp_go (x x0 f0 : R) (t : list (R * R)) : R :=
  match t with
  | [] => f0
  | (x1, f1) :: t' =>
      if Rlt_dec x x1
      then if Req_EM_T x0 x then f0 else (f1 - f0) / (x1 - x0) * (x - x0) + f0
      else interp_go x x1 f1 t'
  end.
Definition interp (x : R) (xs fs : list R) : R :=
  match combine xs fs with
  | [] => 0
  | (x0, f0) :: t => if Rlt_dec x x0 then f0 else interp_go x x0 f0 t
  end.

(** estimators.py:319-347 weighted_quantile; [srt] is np.argsort on reals. *)
Definition weighted_quantile (srt : list R -> list nat) (p : R) (values weights : list R) : res R :=
  let! _ := assertb (if Rlt_dec 0 p then if Rlt_dec p 1 then true else false else false) in
  let! _ := assertb (length values =? length weights)%nat in
  let inds := srt values in
  let sw := take 0 weights inds in
  let q := map (fun x => x / rsum weights) (map2 Rminus (cumsum sw) (map (Rmult (/ 2)) sw)) in
  Ok (interp p q (take 0 values inds)).

(** The estimators; [None] is nan.
    estimators.py:32-52 count_samples *)
Definition count_samples (r : run) : res (option R) := Ok (Some (INR (length (logl r)))).
(** estimators.py:55-75 logz *)
Definition logz (r : run) (lw sim : option (list R)) : res (option R) :=
  let! logw := logw_of r lw sim in Ok (Some (lse logw)).
(** estimators.py:78-98 evidence *)
Definition evidence (r : run) (lw sim : option (list R)) : res (option R) :=
  let! logw := logw_of r lw sim in Ok (Some (exp (lse logw))).
(** [np.sum(w * x) / np.sum(w)], estimators.py:132-133, 228 *)
Definition wmean (w x : list R) : R := rsum (map2 Rmult w x) / rsum w.
(** estimators.py:101-138 param_mean *)
Definition param_mean (k : Z) (handle : bool) (r : run) (lw sim : option (list R)) : res (option R) :=
  let! logw := logw_of r lw sim in
  let w := rel logw in
  match column (theta r) k with
  | Ok x => Ok (Some (wmean w x))
  | Raise IndexError => if handle then Ok None else Raise IndexError
  | Raise e => Raise e
  end.
(** estimators.py:141-173 param_cred *)
Definition param_cred (srt : list R -> list nat) (p : R) (k : Z) (r : run) (lw sim : option (list R))
  : res (option R) :=
  let! logw := logw_of r lw sim in
  let! x := column (theta r) k in
  let! q := weighted_quantile srt p x (rel logw) in
  Ok (Some q).
(** estimators.py:176-203 param_squared_mean *)
Definition param_squared_mean (k : Z) (r : run) (lw sim : option (list R)) : res (option R) :=
  let! logw := logw_of r lw sim in
  let w := rel logw in
  let w := map (fun x => x / rsum w) w in
  let! x := column (theta r) k in
  Ok (Some (rsum (map2 Rmult w (map (fun v => v ^ 2) x)))).
(** estimators.py:206-228 r_mean *)
Definition r_mean (r : run) (lw sim : option (list R)) : res (option R) :=
  let! logw := logw_of r lw sim in
  Ok (Some (wmean (rel logw) (radii (theta r)))).
(** estimators.py:231-259 r_cred *)
Definition r_cred (srt : list R -> list nat) (p : R) (r : run) (lw sim : option (list R)) : res (option R) :=
  let! logw := logw_of r lw sim in
  let! q := weighted_quantile srt p (radii (theta r)) (rel logw) in
  Ok (Some q).

(** The estimators of estimators.py with their keyword arguments fixed. *)
Inductive estimator :=
| CountSamples | Logz | Evidence | RMean
| ParamMean (k : Z) (handle : bool) | ParamSquaredMean (k : Z)
| ParamCred (p : R) (k : Z) | RCred (p : R).
(** One estimator called with logw=[lw]; see the functions above. *)
Definition estimate (srt : list R -> list nat) (e : estimator) (r : run)
           (lw sim : option (list R)) : res (option R) :=
  match e with
  | CountSamples => count_samples r
  | Logz => logz r lw sim
  | Evidence => evidence r lw sim
  | RMean => r_mean r lw sim
  | ParamMean k h => param_mean k h r lw sim
  | ParamSquaredMean k => param_squared_mean k r lw sim
  | ParamCred p k => param_cred srt p k r lw sim
  | RCred p => r_cred srt p r lw sim
  end.

(** ns_run_utils.py:15-39 run_estimators *)
Definition run_estimators (srt : list R -> list nat) (r : run) (l : list estimator)
           (sim : option (list R)) : res (list (option R)) :=
  let! logw := get_logw r sim in
  mapM (fun e => estimate srt e r (Some logw) None) l.
