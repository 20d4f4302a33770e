(** Specification vocabulary over the reals; does not use the model. *)
From Coq Require Import Reals List ZArith Permutation Sorted.
Import ListNotations.
Open Scope R_scope.

Fixpoint sumR (l : list R) : R := match l with [] => 0 | x :: t => x + sumR t end.

(** Random numbers for a simulation of [n] steps: one for each, strictly
    between 0 and 1. *)
Definition draws_ok (sim : option (list R)) (n : nat) : Prop :=
  match sim with Some us => length us = n /\ forall u, In u us -> 0 < u < 1 | None => True end.

Definition mean (l : list R) : R := sumR l / INR (length l).
(** Unbiased sample variance. *)
Definition variance (l : list R) : R :=
  sumR (map (fun x => (x - mean l) ^ 2) l) / (INR (length l) - 1).

(** Weighted average of [x i] for i < n. *)
Definition average (n : nat) (w x : nat -> R) : R :=
  sumR (map (fun i => w i * x i) (seq 0 n)) / sumR (map w (seq 0 n)).

(** [srt] returns the indexes of a nondecreasing rearrangement, and looks only
    at comparisons. *)
Definition sorts (srt : list R -> list nat) : Prop :=
  (forall l, Permutation (srt l) (seq 0 (length l))) /\
  (forall l i j, (i < j < length l)%nat -> nth (nth i (srt l) 0%nat) l 0 <= nth (nth j (srt l) 0%nat) l 0).
Definition compares (srt : list R -> list nat) : Prop :=
  forall l l', length l = length l' ->
    (forall i j, (i < length l)%nat -> (j < length l)%nat -> (nth i l 0 < nth j l 0 <-> nth i l' 0 < nth j l' 0)) ->
    srt l = srt l'.

(** [q] is the quantile function of the sorted samples [s]: it takes the value
    of the k-th sample (from 0) at (k + 1/2) / n, is linear in between and
    constant outside. *)
Definition quantile_of (s : list R) (q : R -> R) : Prop :=
  let n := length s in
  (forall k u, (S k < n)%nat -> 0 <= u <= 1 ->
     q ((INR k + 1 / 2 + u) / INR n) = (1 - u) * nth k s 0 + u * nth (S k) s 0) /\
  (forall x, x <= 1 / 2 / INR n -> q x = nth 0 s 0) /\
  (forall x, (INR n - 1 / 2) / INR n <= x -> q x = nth (n - 1) s 0).
