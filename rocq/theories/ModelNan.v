(** check_ns_run on arrays of floats which may hold nan and infinities
    (ns_run_utils.py:433-566).  The other files take finite log-likelihoods.

    The dictionary has exactly the mandatory keys and perhaps 'output'; logl,
    nlive_array and thread_labels have one axis, theta and thread_min_max two,
    and thread_min_max has two columns.  Other keys and shapes: [ModelRun]. *)
From Verif Require Import Base.

(** A float: a finite one is an integer multiple of 2^-1074. *)
Inductive num := Nan | NegInf | Num (z : Z) | PosInf.

Definition num_eq_dec : forall a b : num, {a = b} + {a <> b}.
Proof. decide equality. apply Z.eq_dec. Defined.

(** IEEE comparisons [==] and [<=]: false if either side is nan. *)
Definition num_eqb (a b : num) : bool :=
  match a, b with
  | NegInf, NegInf | PosInf, PosInf => true
  | Num x, Num y => x =? y
  | _, _ => false
  end.
Definition num_leb (a b : num) : bool :=
  match a, b with
  | Nan, _ | _, Nan => false
  | NegInf, _ | _, PosInf => true
  | Num x, Num y => x <=? y
  | _, _ => false
  end.

(** The order in which numpy sorts: nan comes last. *)
Definition sort_leb (a b : num) : bool :=
  match a, b with
  | _, Nan => true
  | Nan, _ => false
  | _, _ => num_leb a b
  end.

(** np.argsort of an array of floats: any permutation which sorts it. *)
Record sorter := mkSorter {
  nsort : list num -> list nat;
  nsort_perm : forall l, Permutation (nsort l) (seq 0 (length l));
  nsort_sorted : forall l,
      StronglySorted (fun a b => sort_leb a b = true) (map (fun i => nth i l Nan) (nsort l))
}.

(** np.array_equal *)
Fixpoint nums_eqb (l m : list num) : bool :=
  match l, m with
  | [], [] => true
  | x :: l, y :: m => num_eqb x y && nums_eqb l m
  | _, _ => false
  end.

(** thread_labels, with its dtype *)
Inductive labels := LInt (l : list Z) | LFloat (l : list num).
Definition labels_len (l : labels) : nat :=
  match l with LInt l => length l | LFloat l => length l end.

Record nrun := mkNRun {
  n_logl : list num; n_theta : list (list num); n_nlive : list num;
  n_labels : labels; n_tmm : list (num * num)
}.

(** ns_run_utils.py:491-496, the shapes *)
Definition ncheck_members (r : nrun) : res unit :=
  let! _ := assertb (length (n_logl r) =? length (n_nlive r))%nat in
  let! _ := assertb (length (n_logl r) =? labels_len (n_labels r))%nat in
  assertb (length (n_logl r) =? length (n_theta r))%nat.

(** ns_run_utils.py:499-532 check_ns_run_logls.  np.unique is reached only if
    there are no nans. *)
Definition ncheck_logls {E} (S : sorter) (lg : list num) (dup_assert dup_warn : bool) : W E unit :=
  let* _ := wassert (nums_eqb lg (take Nan lg (nsort S lg))) in
  let repeat_logls := (length lg - length (nodup num_eq_dec lg))%nat in
  if dup_assert then wassert (repeat_logls =? 0)%nat
  else if dup_warn then
         if (repeat_logls =? 0)%nat then wret tt else warn WDupLogl
       else wret tt.

(** ns_run_utils.py:535-566 check_ns_run_threads *)
Definition ncheck_threads (r : nrun) : res unit :=
  match n_labels r with
  | LFloat _ => Raise AssertionError
  | LInt labs =>
      let uniq := unique labs in
      let! _ := assertb (list_eqb (zrange (length (n_tmm r))) uniq) in
      let! _ := assertb (existsb (fun mm => num_eqb (fst mm) NegInf) (n_tmm r)) in
      foldM (fun _ lab =>
               let inds := where_ (Z.eqb lab) labs in
               let mm := nth (Z.to_nat lab) (n_tmm r) (Nan, Nan) in
               let! _ := assertb (num_leb (fst mm) (nth (hd 0%nat inds) (n_logl r) Nan)) in
               assertb (num_eqb (snd mm) (nth (last inds 0%nat) (n_logl r) Nan)))
            uniq tt
  end.

(** ns_run_utils.py:433-456 check_ns_run *)
Definition ncheck {E} (S : sorter) (r : nrun) (dup_assert dup_warn : bool) : W E unit :=
  let* _ := wlift (ncheck_members r) in
  let* _ := ncheck_logls S (n_logl r) dup_assert dup_warn in
  wlift (ncheck_threads r).
