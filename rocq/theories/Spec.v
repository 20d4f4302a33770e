(** Specification vocabulary.  Nothing here refers to the model's functions;
    only plain lists, integers and (for runs) the record types. *)
From Coq Require Export List ZArith Lia Permutation Sorted.
Export ListNotations.
Open Scope Z_scope.

(** ** Threads (C01, C02)

    [b] lists for each point the index of the point on whose contour it was
    born, -1 for the whole prior. *)
Definition valid_births (b : list Z) : Prop :=
  forall i, (i < length b)%nat -> -1 <= nth i b 0 < Z.of_nat i.

(** Point [i] is sampled from the whole prior, or an earlier point was already
    born on the same contour (so that one is the replacement). *)
Definition starts_thread (b : list Z) (i : nat) : Prop :=
  (i < length b)%nat /\
  (nth i b 0 = -1 \/ exists j, (j < i)%nat /\ nth j b 0 = nth i b 0).

(** Order of thread starts: birth contour first, then position. *)
Definition starts_before (b : list Z) (i j : nat) : Prop :=
  nth i b 0 < nth j b 0 \/ (nth i b 0 = nth j b 0 /\ (i < j)%nat).

(** [labs] is the canonical thread decomposition of [b]. *)
Definition canonical_threads (b labs : list Z) : Prop :=
  length labs = length b /\
  (* a point which starts no thread continues that of its birth contour *)
  (forall i, (i < length b)%nat -> ~ starts_thread b i ->
             nth i labs 0 = nth (Z.to_nat (nth i b 0)) labs 0) /\
  (* the starts, in order, are numbered 0, 1, ... *)
  (exists starts,
      (forall i, In i starts <-> starts_thread b i) /\
      StronglySorted (starts_before b) starts /\
      (forall k, (k < length starts)%nat ->
                 nth (nth k starts 0%nat) labs 0 = Z.of_nat k) /\
      (* the labels are exactly 0 .. T-1 *)
      (forall x, In x labs <-> 0 <= x < Z.of_nat (length starts))).

(** ** Allocation of births to deaths (C05 - C07)

    [out] assigns to each condition (as far as there are choices) a different
    member of [choices] which is smaller than it. *)
Definition allocation (choices condition out : list Z) : Prop :=
  length out = Nat.min (length condition) (length choices) /\
  (exists rest, Permutation (out ++ rest) choices) /\
  (forall i, (i < length out)%nat -> nth i out 0 < nth i condition 0).

(** [b] maps each point with the birth contour of the first point to -1, and
    every other one to a point which died on its birth contour. *)
Definition births_on_contours (births logls b : list Z) : Prop :=
  length b = length births /\
  forall i, (i < length births)%nat ->
    (nth i births 0 = nth 0 births 0 -> nth i b 0 = -1) /\
    (nth i births 0 <> nth 0 births 0 ->
       0 <= nth i b 0 < Z.of_nat (length logls) /\
       nth (Z.to_nat (nth i b 0)) logls 0 = nth i births 0).

(** Number of elements of [l] equal to [c]. *)
Definition occurs (c : Z) (l : list Z) : nat := count_occ Z.eq_dec l c.

(** ** Valid runs (C60) *)

(** [f] is the first (last) position at which [labs] has label [k]. *)
Definition first_of (labs : list Z) (k : Z) (f : nat) : Prop :=
  (f < length labs)%nat /\ nth f labs 0 = k /\
  forall j, (j < f)%nat -> nth j labs 0 <> k.
Definition last_of (labs : list Z) (k : Z) (l : nat) : Prop :=
  (l < length labs)%nat /\ nth l labs 0 = k /\
  forall j, (l < j < length labs)%nat -> nth j labs 0 <> k.

(** The documented format of a run, given by its columns.  A thread's minimum
    is [None] (minus infinity) or a contour. *)
Definition valid_columns (logl : list Z) (ntheta nnlive : nat) (labs : list Z)
           (mins : list (option Z)) (maxs : list Z) : Prop :=
  nnlive = length logl /\ length labs = length logl /\ ntheta = length logl /\
  StronglySorted Z.le logl /\
  length mins = length maxs /\
  (forall x, In x labs <-> 0 <= x < Z.of_nat (length maxs)) /\
  In None mins /\
  (forall k, (k < length maxs)%nat ->
     (forall f m, first_of labs (Z.of_nat k) f -> nth k mins None = Some m ->
                  m <= nth f logl 0) /\
     (forall l, last_of labs (Z.of_nat k) l -> nth k maxs 0 = nth l logl 0)).
