(** Model of the weights (ns_run_utils.py) and of the estimators which are sums,
    with rounded arithmetic: after each operation the result is rounded, and
    exp, log and sums are only approximate.  Overflow is not modelled: the
    rounding of a finite number is finite. *)
From Verif Require Import Base ModelRun ModelReal.
Local Open Scope R_scope.

(** Additions in some order. *)
Inductive tree := Leaf (x : R) | Node (a b : tree).
Fixpoint leaves (t : tree) : list R :=
  match t with Leaf x => [x] | Node a b => leaves a ++ leaves b end.
Fixpoint add_up (rnd : R -> R) (t : tree) : R :=
  match t with Leaf x => x | Node a b => rnd (add_up rnd a + add_up rnd b) end.

(** Arithmetic: rounding, np.exp, np.log of positive numbers and np.sum. *)
Record arith := mkArith { rnd : R -> R; fexp : R -> R; flog : R -> R; fsum : list R -> R }.

(** Floats: nan, the infinities and numbers. *)
Inductive xval := XNan | XNeg | XPos | XNum (x : R).

(** IEEE addition, subtraction, multiplication and division.  Products with
    infinities do not occur; their result is put as nan.  Division by zero is
    put as nan (it is an infinity for x/0, x <> 0). *)
Definition xneg (a : xval) : xval :=
  match a with XNan => XNan | XNeg => XPos | XPos => XNeg | XNum x => XNum (- x) end.
Definition xadd (A : arith) (a b : xval) : xval :=
  match a, b with
  | XNum x, XNum y => XNum (rnd A (x + y))
  | XNan, _ | _, XNan => XNan
  | XNeg, XPos | XPos, XNeg => XNan
  | XNeg, _ | _, XNeg => XNeg
  | XPos, _ | _, XPos => XPos
  end.
Definition xsub (A : arith) (a b : xval) : xval := xadd A a (xneg b).
Definition xmul (A : arith) (a b : xval) : xval :=
  match a, b with XNum x, XNum y => XNum (rnd A (x * y)) | _, _ => XNan end.
Definition xdiv (A : arith) (a b : xval) : xval :=
  match a, b with
  | XNum x, XNum y => if Req_EM_T y 0 then XNan else XNum (rnd A (x / y))
  | XNeg, XNum y => if Rlt_dec 0 y then XNeg else XNan
  | _, _ => XNan
  end.
Definition xexp (A : arith) (a : xval) : xval :=
  match a with XNan => XNan | XNeg => XNum 0 | XPos => XPos | XNum x => XNum (fexp A x) end.
Definition xlog (A : arith) (a : xval) : xval :=
  match a with
  | XNan | XNeg => XNan
  | XPos => XPos
  | XNum x => if Rlt_dec 0 x then XNum (flog A x) else if Req_EM_T x 0 then XNeg else XNan
  end.
Definition xsqrt (A : arith) (a : xval) : xval :=
  match a with XNum x => if Rle_dec 0 x then XNum (rnd A (sqrt x)) else XNan | XPos => XPos | _ => XNan end.

(** np.max: nan if there is one. *)
Definition xmax2 (a b : xval) : xval :=
  match a, b with
  | XNan, _ | _, XNan => XNan
  | XPos, _ | _, XPos => XPos
  | XNeg, c | c, XNeg => c
  | XNum x, XNum y => XNum (Rmax x y)
  end.
Definition xmax (l : list xval) : xval :=
  match l with [] => XNan | x :: t => fold_right xmax2 x t end.
(** np.sum of numbers; nan if one of them is not a number. *)
Fixpoint numbers (l : list xval) : option (list R) :=
  match l with
  | [] => Some []
  | XNum x :: t => option_map (cons x) (numbers t)
  | _ :: _ => None
  end.
Definition xsum (A : arith) (l : list xval) : xval :=
  match numbers l with Some v => XNum (fsum A v) | None => XNan end.
(** np.cumsum: one addition after another. *)
Fixpoint xcumsum_from (A : arith) (s : xval) (l : list xval) : list xval :=
  match l with [] => [] | x :: t => xadd A s x :: xcumsum_from A (xadd A s x) t end.
Definition xcumsum (A : arith) (l : list xval) : list xval :=
  match l with [] => [] | x :: t => x :: xcumsum_from A x t end.

(** scipy.special.logsumexp (as in scipy before 1.15): the maximum, if finite,
    is subtracted first. *)
Definition xlse (A : arith) (l : list xval) : xval :=
  let m := match xmax l with XNum x => XNum x | _ => XNum 0 end in
  xadd A (xlog A (xsum A (map (fun x => xexp A (xsub A x m)) l))) m.

(** ns_run_utils.py:426 log_subtract *)
Definition x_log_subtract (A : arith) (a b : xval) : xval :=
  xadd A a (xlog A (xsub A (XNum 1) (xexp A (xsub A b a)))).

(** ns_run_utils.py:399-405 get_logx *)
Definition x_logx (A : arith) (nlive : list Z) (sim : option (list R)) : res (list xval) :=
  match nlive with
  | [] => Raise ValueError
  | _ =>
      let! _ := assertb (0 <? min_list nlive)%Z in
      Ok (xcumsum A match sim with
                    | Some us => map2 (fun u n => xdiv A (xlog A (XNum u)) (XNum (rnd A (IZR n)))) us nlive
                    | None => map (fun n => xmul A (XNum (-1)) (xdiv A (XNum 1) (XNum (rnd A (IZR n))))) nlive
                    end)
  end.

(** ns_run_utils.py:320-335 *)
Definition x_trapezium (A : arith) (logx : list xval) : list xval :=
  match logx with
  | x0 :: x1 :: rest =>
      x_log_subtract A (XNum 0) (xsub A (xlse A [x0; x1]) (xlog A (XNum 2)))
      :: map (fun d => xsub A d (xlog A (XNum 2))) (map2 (x_log_subtract A) logx rest)
      ++ [xsub A (xlse A [nth (length logx - 2) logx XNan; nth (length logx - 1) logx XNan]) (xlog A (XNum 2))]
  | _ => []
  end.

(** ns_run_utils.py:298-343 get_logw *)
Definition x_logw (A : arith) (r : run) (sim : option (list R)) : res (list xval) :=
  let! logx := x_logx A (nlive_array r) sim in
  let lg := map (fun z => XNum (fval z)) (logl r) in
  if (length logx =? length lg)%nat then
    if (length lg =? 1)%nat then Ok lg
    else Ok (map2 (xadd A) (x_trapezium A logx) lg)
  else Raise ValueError.

(** ns_run_utils.py:346-365 get_w_rel, and the same in estimators.py *)
Definition x_rel (A : arith) (logw : list xval) : list xval :=
  map (fun x => xexp A (xsub A x (xmax logw))) logw.
Definition x_w_rel (A : arith) (r : run) (sim : option (list R)) : res (list xval) :=
  let! logw := x_logw A r sim in Ok (x_rel A logw).

(** estimators.py:55-98 logz, evidence *)
Definition x_logz (A : arith) (r : run) (sim : option (list R)) : res xval :=
  let! logw := x_logw A r sim in Ok (xlse A logw).
Definition x_evidence (A : arith) (r : run) (sim : option (list R)) : res xval :=
  let! z := x_logz A r sim in Ok (xexp A z).
(** [np.sum(w * x) / np.sum(w)] *)
Definition x_wmean (A : arith) (w x : list xval) : xval :=
  xdiv A (xsum A (map2 (xmul A) w x)) (xsum A w).
(** [theta[:, k]] *)
Definition x_column (r : run) (k : Z) : res (list xval) :=
  let! c := column (theta r) k in Ok (map XNum c).
(** estimators.py:101-138 param_mean, without handle_indexerror *)
Definition x_param_mean (A : arith) (k : Z) (r : run) (sim : option (list R)) : res xval :=
  let! logw := x_logw A r sim in
  let! x := x_column r k in
  Ok (x_wmean A (x_rel A logw) x).
(** estimators.py:176-203 param_squared_mean *)
Definition x_param_squared_mean (A : arith) (k : Z) (r : run) (sim : option (list R)) : res xval :=
  let! logw := x_logw A r sim in
  let! x := x_column r k in
  let w := x_rel A logw in
  let w' := map (fun a => xdiv A a (xsum A w)) w in
  Ok (xsum A (map2 (xmul A) w' (map (fun a => xmul A a a) x))).
(** estimators.py:206-230 r_mean *)
Definition x_radii (A : arith) (th : list (list Z)) : list xval :=
  map (fun row => xsqrt A (xsum A (map (fun z => xmul A (XNum (fval z)) (XNum (fval z))) row))) th.
Definition x_r_mean (A : arith) (r : run) (sim : option (list R)) : res xval :=
  let! logw := x_logw A r sim in
  Ok (x_wmean A (x_rel A logw) (x_radii A (theta r))).

(** What is assumed of the arithmetic: rounding keeps the order and does not
    change 0, 1, 2 and log 2, or what is rounded already; exp and log keep the
    order, exp is not negative and both are exact where the result is 1 and 0;
    np.sum adds in some order. *)
Record sound (A : arith) : Prop := mkSound {
  s_mono : forall x y, x <= y -> rnd A x <= rnd A y;
  s_idem : forall x, rnd A (rnd A x) = rnd A x;
  s_0 : rnd A 0 = 0; s_1 : rnd A 1 = 1; s_2 : rnd A 2 = 2;
  s_exp_mono : forall x y, x <= y -> fexp A x <= fexp A y;
  s_exp_0 : fexp A 0 = 1;
  s_exp_pos : forall x, 0 <= fexp A x;
  s_log_mono : forall x y, 0 < x -> x <= y -> flog A x <= flog A y;
  s_log_1 : flog A 1 = 0;
  s_log_2 : rnd A (flog A 2) = flog A 2;
  s_sum_nil : fsum A [] = 0;
  s_sum : forall l, l <> [] -> exists t, Permutation (leaves t) l /\ fsum A l = add_up (rnd A) t
}.

(** Accuracy: errors of rounding, exp and log at most [u] (relative for large,
    absolute for small results); rounding does not change the sign; np.sum adds
    in some order. *)
Record accurate (u : R) (A : arith) : Prop := mkAccurate {
  c_rnd : forall x, Rabs (rnd A x - x) <= u * (Rabs x + 1);
  c_sign : forall x, 0 <= x -> 0 <= rnd A x;
  c_exp : forall x, Rabs (fexp A x - exp x) <= u * (exp x + 1);
  c_log : forall x, 0 < x -> Rabs (flog A x - ln x) <= u * (Rabs (ln x) + 1);
  c_sum_nil : fsum A [] = 0;
  c_sum : forall l, l <> [] -> exists t, Permutation (leaves t) l /\ fsum A l = add_up (rnd A) t
}.

(** Accuracy of floating point numbers without underflow: the errors of rounding,
    exp and log are at most [u] times the exact result. *)
Record relative (u : R) (A : arith) : Prop := mkRelative {
  r_rnd : forall x, Rabs (rnd A x - x) <= u * Rabs x;
  r_exp : forall x, Rabs (fexp A x - exp x) <= u * exp x;
  r_log : forall x, 0 < x -> Rabs (flog A x - ln x) <= u * Rabs (ln x);
  r_sum_nil : fsum A [] = 0;
  r_sum : forall l, l <> [] -> exists t, Permutation (leaves t) l /\ fsum A l = add_up (rnd A) t
}.
