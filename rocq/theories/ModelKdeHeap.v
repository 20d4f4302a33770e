(** weighted_1d_gaussian_kde and alternate_helper (plots.py:699-764) on arrays
    which may share memory: [weights /= np.sum(weights)] changes the array it is
    given. *)
From Verif Require Import Base ModelRun ModelReal ModelStats ModelPlots.
Local Open Scope R_scope.

(** Memory: blocks of numbers (None is nan or an infinity).  An array is a
    block with the positions which the array shows, in order: all of them, or
    every second one for a slice. *)
Definition memory := list (list fl).
Record array := mkArray { a_block : nat; a_at : list nat }.
Definition at_ (m : memory) (b i : nat) : fl := nth i (nth b m []) None.
Definition read (m : memory) (a : array) : list fl := map (at_ m (a_block a)) (a_at a).
Definition write1 (m : memory) (b i : nat) (v : fl) : memory := upd b (upd i v (nth b m [])) m.
(** [a[...] = vals] *)
Definition write (m : memory) (a : array) (vals : list fl) : memory :=
  fold_left (fun m p => write1 m (a_block a) (fst p) (snd p)) (combine (a_at a) vals) m.
(** A new block and the array which shows all of it. *)
Definition alloc (m : memory) (vals : list fl) : memory * array :=
  (m ++ [vals], mkArray (length m) (seq 0 (length vals))).

(** Lines 750-763, after the weights have been normalised to [w]. *)
Definition entropy_size (w : list R) : fl :=
  let nz := filter nonzero w in
  if existsb negative nz then None else Some (exp (-1 * rsum (map (fun a => a * ln a) nz))).
Definition kde_rest (xs samples w : list fl) : list fl :=
  let nans := map (fun _ => match samples with [] => Some 0 | _ :: _ => None end) xs in
  match all_finite samples, all_finite w with
  | Some s, Some w =>
      match entropy_size w with
      | None => nans
      | Some neff =>
          if Req_EM_T neff 1 then nans
          else let sig := kde_sigma s w neff in
               if Req_EM_T sig 0 then nans
               else map (option_map (kde_at s w sig)) xs
      end
  | _, _ => nans
  end.
(** plots.py:744-764 weighted_1d_gaussian_kde: the arguments are read again after
    the weights have been changed. *)
Definition kde_mem (m : memory) (xs samples weights : array) : res (list fl) * memory :=
  if (length (a_at samples) =? length (a_at weights))%nat then
    let s := fsum (read m weights) in
    let m' := write m weights (map (fun a => fdiv a s) (read m weights)) in
    (Ok (kde_rest (read m' xs) (read m' samples) (read m' weights)), m')
  else (Raise AssertionError, m).
(** plots.py:699-705 alternate_helper with this function: the mask of line 702
    makes a new array, the slices of lines 703-704 do not. *)
Definition alternate_mem (m : memory) (xs alt : array) : res (list fl) * memory :=
  let '(m, a) := alloc m (map Some (finite_part (read m alt))) in
  kde_mem m xs (mkArray (a_block a) (evens (a_at a))) (mkArray (a_block a) (odds (a_at a))).
