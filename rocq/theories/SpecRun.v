(** Specification vocabulary about runs.  Only the record types of the model
    are used, none of its functions. *)
From Verif Require Export Spec.
From Verif Require Import Base ModelRun ModelBoot.

(** Minus infinity is [None]. *)
Definition ext_opt (e : ext) : option Z := match e with NInf => None | Fin z => Some z end.

(** [labs] and [tmm] are the thread labels and thread_min_max of [r], and its
    columns are as documented. *)
Definition consistent (r : run) (labs : list Z) (tmm : list (ext * Z)) : Prop :=
  thread_labels r = Some labs /\ thread_min_max r = Some tmm /\
  valid_columns (logl r) (length (theta r)) (length (nlive_array r)) labs
                (map (fun mm => ext_opt (fst mm)) tmm) (map snd tmm).

(** A valid run also has no key which is not documented. *)
Definition valid_run (r : run) : Prop :=
  settings r = None /\ exists labs tmm, consistent r labs tmm.

(** ** Samples arrays (C03, C04, C10, C11)

    A samples array is given by its rows (birth contour, logl).  It is well
    formed if it has a row and every point dies above its birth contour, which
    is either [init], below all the points, or the logl of some point. *)
Definition well_formed (init : Z) (pts : list (Z * Z)) : Prop :=
  pts <> [] /\
  forall b l, In (b, l) pts ->
    b < l /\ init < l /\ (b = init \/ exists b', In (b', b) pts).

(** Number of points alive just before the death of point [i], when [b] gives
    the index of each point's birth: those already born and not yet dead. *)
Definition alive_before (b : list Z) (i : nat) : nat :=
  length (filter (fun j => andb (nth j b 0 <? Z.of_nat i) (i <=? j)%nat) (seq 0 (length b))).

(** Start and end contours of the thread with label [k], when its first and
    last points are [f] and [l]. *)
Definition thread_span (logls b labs : list Z) (k : Z) (mm : ext * Z) : Prop :=
  exists f l, first_of labs k f /\ last_of labs k l /\
    mm = (if nth f b 0 =? -1 then NInf else Fin (nth (Z.to_nat (nth f b 0)) logls 0),
          nth l logls 0).

(** ** Live points as a function of logl (C18 - C25)

    A thread with thread_min_max [mm] contributes a live point at [x] when
    start < x <= end. *)
Definition starts_below (e : ext) (x : Z) : bool :=
  match e with NInf => true | Fin z => z <? x end.
Definition covers (x : Z) (mm : ext * Z) : bool := starts_below (fst mm) x && (x <=? snd mm).
Definition live_at (tmm : list (ext * Z)) (x : Z) : nat := length (filter (covers x) tmm).

(** A complete run with distinct logls: the columns are as documented, every
    thread starts on the contour of a point of the run (or is sampled from the
    whole prior), its points are above that contour, and nlive_array is the
    number of threads alive. *)
Definition complete_run (r : run) (labs : list Z) (tmm : list (ext * Z)) : Prop :=
  consistent r labs tmm /\ NoDup (logl r) /\
  (forall k f, (k < length tmm)%nat -> first_of labs (Z.of_nat k) f ->
     starts_below (fst (nth k tmm (NInf, 0))) (nth f (logl r) 0) = true) /\
  (forall m e, In (Fin m, e) tmm -> In m (logl r)) /\
  (forall i, (i < length (logl r))%nat ->
     nth i (nlive_array r) 0 = Z.of_nat (live_at tmm (nth i (logl r) 0))).

(** No thread starts exactly on (or below) [x]. *)
Definition starts_above (tmm : list (ext * Z)) (x : Z) : Prop :=
  forall m e, In (Fin m, e) tmm -> x < m.

(** Samples (logl, (label, theta)) of a run with labels [labs], the labels
    shifted by [t]; and of several runs, each shifted by the number of threads
    before it (C20). *)
Definition samples_of (t : nat) (r : run) (labs : list Z) : list (Z * (Z * list Z)) :=
  map (fun '(l, (k, th)) => (l, (Z.of_nat t + k, th)))
      (combine (logl r) (combine labs (theta r))).
Fixpoint merged (t : nat) (rs : list (run * list Z * list (ext * Z)))
  : list (Z * (Z * list Z)) :=
  match rs with
  | [] => []
  | (r, labs, tmm) :: rest => samples_of t r labs ++ merged (t + length tmm) rest
  end.

(** Total of a value of run['output'] which may be a list (C22). *)
Definition total (v : oval) : Z :=
  match v with ONum z => z | OIter l => fold_right Z.add 0 l end.

(** Every finite start lies strictly above some point (so no thread starts on
    the lowest logl), and the number of threads starting exactly on [x]. *)
Definition above_some (tmm : list (ext * Z)) (ls : list Z) : Prop :=
  forall m e, In (Fin m, e) tmm -> exists x, In x ls /\ x < m.
Definition starts_on (tmm : list (ext * Z)) (x : Z) : nat :=
  length (filter (fun mm => match fst mm with Fin z => z =? x | NInf => false end) tmm).

(** The samples (logl, theta) of the thread with label [k], in order. *)
Definition samples_of_thread (r : run) (labs : list Z) (k : Z) : list (Z * list Z) :=
  map snd (filter (fun p => fst p =? k) (combine labs (combine (logl r) (theta r)))).

(** ** dynesty results (C13, C14) *)

(** [ids] labels the samples with 0 .. T-1, in ascending order of logl. *)
Definition labelled (lg : list Z) (ths : list (list Z)) (ids : list Z) (T : nat) : Prop :=
  lg <> [] /\ length ths = length lg /\ length ids = length lg /\ StronglySorted Z.le lg /\
  forall x, In x ids <-> 0 <= x < Z.of_nat T.

(** Thread [k] ends at its last sample, with logl [e]. *)
Definition ends_at (lg ids : list Z) (k : nat) (e : Z) : Prop :=
  exists l, last_of ids (Z.of_nat k) l /\ e = nth l lg 0.

(** Start contours of the threads of dynamic results: the lower bound of the
    batch of the thread's first sample. *)
Definition batch_starts (ids : list Z) (samples_batch : list nat) (bounds : list ext)
           (T : nat) (starts : list ext) : Prop :=
  length starts = T /\
  forall k f, (k < T)%nat -> first_of ids (Z.of_nat k) f ->
    exists b, nth_error samples_batch f = Some b /\ nth_error bounds b = nth_error starts k.

(** Start contour [e] is at or below, or exactly on, [x]. *)
Definition at_or_below (x : Z) (e : ext) : bool := match e with NInf => true | Fin z => z <=? x end.
Definition exactly_on (x : Z) (e : ext) : bool := match e with NInf => false | Fin z => z =? x end.

(** ** Where a thread's start is counted (C62, C72)

    Position [b] among points with logls [lg] for a thread starting on contour
    [s]: a point on the contour if there is one, otherwise the nearest point
    (the first of them). *)
Definition attached (lg : list Z) (s : Z) (b : nat) : Prop :=
  (b < length lg)%nat /\
  (nth b lg 0 = s \/
   ~ In s lg /\
   (forall j, (j < length lg)%nat -> Z.abs (nth b lg 0 - s) <= Z.abs (nth j lg 0 - s)) /\
   (forall j, (j < b)%nat -> Z.abs (nth b lg 0 - s) < Z.abs (nth j lg 0 - s))).

(** ** Draws of the random generator (C25, C27)

    [k] successive draws below [n] from state [s], and the state after them;
    and the state after seeding as the random_seed argument asks. *)
Fixpoint draw_seq (E : env) (n k : nat) (s : rst E) : list nat * rst E :=
  match k with
  | O => ([], s)
  | S k' => let (x, s1) := r_below E n s in let (xs, s2) := draw_seq E n k' s1 in (x :: xs, s2)
  end.
Definition seeded_state {E} (b : bseed E) (s : rst E) : rst E :=
  match b with BKeep => s | BInt z => r_seed E z | BFresh s' => s' end.
(** Seeds which np.random.seed accepts: an integer must be from 0 to 2^32 - 1. *)
Definition valid_seed (s : option Z) : Prop := forall z, s = Some z -> 0 <= z < 4294967296.
Definition accepted_seed {E} (b : bseed E) : Prop :=
  match b with BInt z => 0 <= z < 4294967296 | _ => True end.

(** ** Threads of a resample with ninit_sep (C62)

    Thread [j], sampled from the whole prior, supports thread [k] starting on
    contour [s]: it has a point below [s], and is either still alive at the
    first point of [k] or has a point before it which is not farther from [s]. *)
Definition supports (r : run) (labs : list Z) (tmm : list (ext * Z)) (j k : nat) (s : Z) : Prop :=
  forall f p, first_of labs (Z.of_nat j) f -> first_of labs (Z.of_nat k) p ->
    nth f (logl r) 0 < s /\
    (nth p (logl r) 0 < snd (nth j tmm (NInf, 0)) \/
     exists i, (i < length labs)%nat /\ nth i labs 0 = Z.of_nat j /\ nth i (logl r) 0 < nth p (logl r) 0 /\
               Z.abs (nth i (logl r) 0 - s) <= nth p (logl r) 0 - s).

(** ** One thread as a run of its own (C72) *)
Definition single_thread (th : run) (lab : Z) (mm : ext * Z) : Prop :=
  thread_labels th = Some (repeat lab (length (logl th))) /\ thread_min_max th = Some [mm] /\
  nlive_array th = repeat 1 (length (logl th)) /\ length (theta th) = length (logl th) /\
  logl th <> [] /\ StronglySorted Z.le (logl th) /\ last (logl th) 0 = snd mm /\
  starts_below (fst mm) (nth 0 (logl th) 0) = true.
(** Samples (logl, (label, theta)) of such a run. *)
Definition labelled_samples (th : run) (lab : Z) : list (Z * (Z * list Z)) :=
  map (fun p => (fst p, (lab, snd p))) (combine (logl th) (theta th)).
(** The contours above -inf on which threads start, in order. *)
Fixpoint start_contours (mms : list (ext * Z)) : list Z :=
  match mms with
  | [] => []
  | (Fin s, _) :: t => s :: start_contours t
  | (NInf, _) :: t => start_contours t
  end.
