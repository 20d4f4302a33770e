(** Basic vocabulary of the model: exceptions as values, the environment
    (random generator and argsort), the state-and-exception monad, and the
    numpy list operations used by nestcheck. *)
From Coq Require Export List ZArith Lia Bool Arith Permutation Sorted.
Export ListNotations.
Open Scope Z_scope.

(** Python exceptions which the modelled code raises or lets through.
    [OutOfFuel] is not a Python exception: it marks exhaustion of the fuel of
    a modelled [while] loop and is proved unreachable. *)
Inductive exn :=
| AssertionError | ValueError | IndexError | KeyError | TypeError
| AttributeError | OSError | MemoryError | EOFError | PicklingError
| ZeroDivisionError | NameError
| OtherError (n : nat) | OutOfFuel.

Inductive res (A : Type) : Type :=
| Ok (a : A)
| Raise (e : exn).
Arguments Ok {A} a.
Arguments Raise {A} e.

Definition rbind {A B} (m : res A) (f : A -> res B) : res B :=
  match m with Ok a => f a | Raise e => Raise e end.

Notation "'let!' x := m 'in' k" := (rbind m (fun x => k))
  (at level 200, x pattern, m at level 200, k at level 200,
   format "'[v' 'let!'  x  :=  m  'in' '/' k ']'").

(** [assert b] *)
Definition assertb (b : bool) : res unit :=
  if b then Ok tt else Raise AssertionError.

(** A list comprehension / loop whose body may raise. *)
Fixpoint mapM {A B} (f : A -> res B) (l : list A) : res (list B) :=
  match l with
  | [] => Ok []
  | x :: t => let! y := f x in let! ys := mapM f t in Ok (y :: ys)
  end.

Fixpoint foldM {A S} (f : S -> A -> res S) (l : list A) (s : S) : res S :=
  match l with
  | [] => Ok s
  | x :: t => let! s' := f s x in foldM f t s'
  end.

(** Warnings emitted with [warnings.warn] (all are UserWarnings). *)
Inductive warning :=
| WDupLogl            (* ns_run_utils.py:532 *)
| WDupStarts          (* ns_run_utils.py:120 *)
| WMoreBirths         (* data_processing.py:604 *)
| WUnlabelled         (* data_processing.py:687 *)
| WNoNinit            (* error_analysis.py:64 *)
| WStats              (* data_processing.py:250 *)
| WNoParallel         (* parallel_utils.py:64, 123 *).

(** The environment of a computation: numpy's global random generator and its
    argsort.  [r_below n s] is the primitive "uniform integer in [0, n)" from
    which [choice], [randint] and [shuffle] are built: it may return any value
    below [n].  [argsort] may be any function returning indexes of a sorted
    rearrangement (numpy's default quicksort is not stable). *)
Record env := mkEnv {
  rst : Type;
  r_seed : Z -> rst;
  r_below : nat -> rst -> nat * rst;
  r_below_ok : forall n s, (0 < n)%nat -> (fst (r_below n s) < n)%nat;
  argsort : list Z -> list nat;
  argsort_perm : forall l, Permutation (argsort l) (seq 0 (List.length l));
  argsort_sorted : forall l,
      StronglySorted Z.le (List.map (fun i => List.nth i l 0) (argsort l))
}.

(** World: the state of the random generator and the warnings so far (newest
    first).  It survives exceptions, as in Python. *)
Record world (E : env) := mkW { w_rng : rst E; w_warn : list warning }.
Arguments mkW {E}. Arguments w_rng {E}. Arguments w_warn {E}.

Definition W (E : env) (A : Type) : Type := world E -> res A * world E.
Definition wret {E A} (a : A) : W E A := fun w => (Ok a, w).
Definition wraise {E A} (e : exn) : W E A := fun w => (Raise e, w).
Definition wlift {E A} (m : res A) : W E A := fun w => (m, w).
Definition wbind {E A B} (m : W E A) (f : A -> W E B) : W E B :=
  fun w => match m w with
           | (Ok a, w') => f a w'
           | (Raise e, w') => (Raise e, w')
           end.
Notation "'let*' x := m 'in' k" := (wbind m (fun x => k))
  (at level 200, x pattern, m at level 200, k at level 200,
   format "'[v' 'let*'  x  :=  m  'in' '/' k ']'").

Definition wassert {E} (b : bool) : W E unit := wlift (assertb b).
Definition warn {E} (x : warning) : W E unit :=
  fun w => (Ok tt, mkW (w_rng w) (x :: w_warn w)).
(** np.random.get_state / set_state / seed.  A seed must be between 0 and
    2^32 - 1; otherwise ValueError is raised and the state is not changed. *)
Definition get_state {E} : W E (rst E) := fun w => (Ok (w_rng w), w).
Definition set_state {E} (s : rst E) : W E unit :=
  fun w => (Ok tt, mkW s (w_warn w)).
Definition good_seed (z : Z) : bool := (0 <=? z) && (z <? 4294967296).
Definition seed {E} (z : Z) : W E unit :=
  if good_seed z then set_state (r_seed E z) else wraise ValueError.
Definition below {E} (n : nat) : W E nat :=
  fun w => let '(k, s) := r_below E n (w_rng w) in (Ok k, mkW s (w_warn w)).

Fixpoint wfoldM {E A S} (f : S -> A -> W E S) (l : list A) (s : S) : W E S :=
  match l with
  | [] => wret s
  | x :: t => let* s' := f s x in wfoldM f t s'
  end.
Fixpoint wmapM {E A B} (f : A -> W E B) (l : list A) : W E (list B) :=
  match l with
  | [] => wret []
  | x :: t => let* y := f x in let* ys := wmapM f t in wret (y :: ys)
  end.

(** ** numpy list operations *)

(** [np.where(p(l))[0]]: ascending list of the indexes at which [p] holds. *)
Fixpoint where_from {A} (p : A -> bool) (k : nat) (l : list A) : list nat :=
  match l with
  | [] => []
  | x :: t => if p x then k :: where_from p (S k) t else where_from p (S k) t
  end.
Definition where_ {A} (p : A -> bool) (l : list A) : list nat :=
  where_from p 0 l.

(** [(p(l)).sum()] *)
Fixpoint countb {A} (p : A -> bool) (l : list A) : nat :=
  match l with
  | [] => 0%nat
  | x :: t => if p x then S (countb p t) else countb p t
  end.

(** [l[i] = x] for an index in range (no effect out of range; the code only
    assigns in range). *)
Fixpoint upd {A} (i : nat) (x : A) (l : list A) : list A :=
  match l, i with
  | [], _ => []
  | _ :: t, O => x :: t
  | y :: t, S j => y :: upd j x t
  end.

(** Fancy indexing [l[idx]]; [d] is never reached for indexes in range. *)
Definition take {A} (d : A) (l : list A) (idx : list nat) : list A :=
  List.map (fun i => List.nth i l d) idx.

(** [np.cumsum] *)
Fixpoint cumsum_from (acc : Z) (l : list Z) : list Z :=
  match l with
  | [] => []
  | x :: t => (acc + x) :: cumsum_from (acc + x) t
  end.
Definition cumsum (l : list Z) : list Z := cumsum_from 0 l.

(** [np.diff] *)
Fixpoint diff (l : list Z) : list Z :=
  match l with
  | x :: t => match t with
              | y :: _ => (y - x) :: diff t
              | [] => []
              end
  | [] => []
  end.

Definition zsum (l : list Z) : Z := fold_right Z.add 0 l.

(** [l[0]] *)
Definition item0 {A} (l : list A) : res A :=
  match l with [] => Raise IndexError | x :: _ => Ok x end.

(** [l[:-1]] *)
Definition but_last {A} (l : list A) : list A := removelast l.

(** [l.min()], for nonempty [l] (numpy raises ValueError on empty input; the
    callers in the model raise it explicitly). *)
Definition min_list (l : list Z) : Z :=
  match l with [] => 0 | x :: t => fold_left Z.min t x end.
Definition max_list (l : list Z) : Z :=
  match l with [] => 0 | x :: t => fold_left Z.max t x end.

(** [np.unique]: sorted distinct values. *)
Fixpoint insert_u (x : Z) (l : list Z) : list Z :=
  match l with
  | [] => [x]
  | y :: t => if x <? y then x :: l
              else if x =? y then l else y :: insert_u x t
  end.
Definition unique (l : list Z) : list Z := fold_right insert_u [] l.

Fixpoint list_eqb (l m : list Z) : bool :=
  match l, m with
  | [], [] => true
  | x :: t, y :: u => (x =? y) && list_eqb t u
  | _, _ => false
  end.

(** [np.asarray(range(n))] *)
Definition zrange (n : nat) : list Z := List.map Z.of_nat (seq 0 n).

(** [np.delete(l, i)] *)
Fixpoint delete {A} (i : nat) (l : list A) : list A :=
  match l, i with
  | [], _ => []
  | _ :: t, O => t
  | y :: t, S j => y :: delete j t
  end.

(** [np.random.choice(l)]; raises ValueError on an empty array. *)
Definition choice {E A} (l : list A) : W E A :=
  match l with
  | [] => wraise ValueError
  | x :: _ => let* k := below (List.length l) in wret (List.nth k l x)
  end.

(** [np.random.choice(l, size=k)] (with replacement). *)
Fixpoint choice_n {E A} (l : list A) (k : nat) : W E (list A) :=
  match k with
  | O => wret []
  | S k' => let* x := choice l in let* xs := choice_n l k' in wret (x :: xs)
  end.

(** [np.random.shuffle]: a permutation determined by the draws.  numpy swaps
    in place (Fisher-Yates); here elements are drawn one after another.  Both
    can produce every permutation and nothing else. *)
Fixpoint shuffle_fuel {E A} (n : nat) (l : list A) : W E (list A) :=
  match n with
  | O => wret []
  | S n' =>
      match l with
      | [] => wret []
      | x :: _ =>
          let* k := below (List.length l) in
          let* r := shuffle_fuel n' (delete k l) in
          wret (List.nth k l x :: r)
      end
  end.
Definition shuffle {E A} (l : list A) : W E (list A) :=
  shuffle_fuel (List.length l) l.

(** [np.random.randint(lo, hi, n)]: with [n = 0] numpy returns an empty array
    whatever the bounds; otherwise an empty range raises ValueError. *)
Fixpoint randint_pos {E} (lo hi : nat) (n : nat) : W E (list nat) :=
  match n with
  | O => wret []
  | S n' => let* k := below (hi - lo) in
            let* r := randint_pos lo hi n' in wret ((lo + k)%nat :: r)
  end.
Definition randint {E} (lo hi : nat) (n : nat) : W E (list nat) :=
  match n with
  | O => wret []
  | S _ => if (lo <? hi)%nat then randint_pos lo hi n else wraise ValueError
  end.
