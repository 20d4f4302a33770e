(** How the arguments reach the function which parallel_map and parallel_apply
    call (parallel_utils.py:12-142), and what batch_process_data hands to
    process_func (data_processing.py:142-148, 172-209).

    [V] is the type of Python objects.  The function called takes its positional
    arguments and its keywords.  A dictionary is a list of key and value. *)
From Coq Require Import String.
From Verif Require Import Base ModelRun ModelData ModelParallel.
Local Open Scope list_scope. Local Open Scope nat_scope. Local Open Scope Z_scope.

Definition dict (V : Type) := list (string * V).
Definition has_key {V} (k : string) (d : dict V) : bool := existsb (fun p => String.eqb k (fst p)) d.
(** [d[k] = v] *)
Fixpoint set_key {V} (k : string) (v : V) (d : dict V) : dict V :=
  match d with
  | [] => [(k, v)]
  | (k', u) :: t => if String.eqb k k' then (k', v) :: t else (k', u) :: set_key k v t
  end.
Fixpoint get_key {V} (k : string) (d : dict V) : option V :=
  match d with
  | [] => None
  | (k', u) :: t => if String.eqb k k' then Some u else get_key k t
  end.
Definition del_key {V} (k : string) (d : dict V) : dict V :=
  filter (fun p => negb (String.eqb k (fst p))) d.

(** A collection of positional arguments: a tuple or another iterable. *)
Inductive pos V := Tup (l : list V) | Seq (l : list V).
Arguments Tup {V}. Arguments Seq {V}.
Definition items {V} (p : pos V) : list V := match p with Tup l | Seq l => l end.
Definition is_tuple {V} (p : pos V) : bool := match p with Tup _ => true | Seq _ => false end.

(** concurrent.futures: ProcessPoolExecutor(max_workers=...) *)
Definition pool_ok (max_workers : option Z) : bool :=
  match max_workers with None => true | Some n => 0 <? n end.

(** parallel_utils.py:70-142 parallel_apply.  [rest] are the keywords left after
    those which are known have been popped; [sized] tells whether arg_iterable
    has a length (line 139; a generator has none); [tq] is the caller's
    tqdm_kwargs.  The first component is that dictionary when the function
    returns or raises (lines 115-116). *)
Definition apply_call {E V B} (false_ : V) (par : option (sched E)) (pw : bool)
           (max_workers : option Z) (rest : list string) (tq : dict V)
           (func : list V -> dict V -> W E B) (xs : list V) (sized : bool)
           (func_args func_pre_args : pos V) (func_kwargs : dict V)
  : dict V * W E (list B) :=
  match rest with
  | _ :: _ => (tq, wraise TypeError)
  | [] =>
      (if has_key "leave" tq then tq else set_key "leave" false_ tq,
       let* _ := wassert (is_tuple func_args) in
       let* _ := wassert (is_tuple func_pre_args) in
       match par with
       | None =>
           parallel_apply None pw
             (fun x => func (items func_pre_args ++ [x] ++ items func_args) func_kwargs) xs
       | Some s =>
           if pool_ok max_workers then
             if sized then
               parallel_apply (Some s) pw
                 (fun x => func (items func_pre_args ++ [x] ++ items func_args) func_kwargs) xs
             else wraise TypeError
           else wraise ValueError
       end)
  end.

(** Python's [zip]: tuples of the first, second, ... elements, as many as the
    shortest iterable has; of nothing, nothing. *)
Fixpoint heads {V} (ls : list (list V)) : option (list V * list (list V)) :=
  match ls with
  | [] => Some ([], [])
  | [] :: _ => None
  | (x :: t) :: ls => match heads ls with
                      | Some (hs, ts) => Some (x :: hs, t :: ts)
                      | None => None
                      end
  end.
Fixpoint zip_fuel {V} (n : nat) (ls : list (list V)) : list (list V) :=
  match n with
  | O => []
  | S n => match heads ls with
           | Some (hs, ts) => hs :: zip_fuel n ts
           | None => []
           end
  end.
Definition zip {V} (ls : list (list V)) : list (list V) :=
  match ls with [] => [] | l :: _ => zip_fuel (length l) ls end.

(** parallel_utils.py:12-67 parallel_map, with any number of iterables.  The
    builtin [map] raises TypeError without any; Executor.map zips them. *)
Definition map_call {E V B} (par : option (sched E)) (pw : bool) (chunksize : nat)
           (max_workers : option Z) (rest : list string)
           (func : list V -> dict V -> W E B) (its : list (list V))
           (func_pre_args : pos V) (func_kwargs : dict V) : W E (list B) :=
  match rest with
  | _ :: _ => wraise TypeError
  | [] =>
      let f t := func (items func_pre_args ++ t) func_kwargs in
      match par with
      | None =>
          match its with
          | [] => let* _ := if pw then warn WNoParallel else wret tt in wraise TypeError
          | _ => parallel_map None pw chunksize f (zip its)
          end
      | Some s =>
          if pool_ok max_workers then parallel_map (Some s) pw chunksize f (zip its)
          else wraise ValueError
      end
  end.

(** data_processing.py:172-209 process_error_helper as it is called: the keyword
    errors_to_handle is bound to its parameter (default: the empty tuple
    [unit_]), the others are collected in func_kwargs.  A keyword which names
    one of the three positional parameters raises TypeError before the body
    runs. *)
Definition helper_call {E V} (unit_ : V) (handles : V -> exn -> bool)
           (process_func : Z -> V -> dict V -> W E run) (base_dir : V) (kw : dict V) (root : Z)
  : W E item :=
  if has_key "root" kw || has_key "base_dir" kw || has_key "process_func" kw
  then wraise TypeError
  else
    let eth := match get_key "errors_to_handle" kw with Some v => v | None => unit_ end in
    process_error_helper (fun z => process_func z base_dir (del_key "errors_to_handle" kw))
                         (handles eth) root.

(** data_processing.py:102-169 batch_process_data, without the caching decorator.
    [func_kwargs] is the caller's dictionary, [None] if it is not given;
    [errors_to_handle] likewise.  The first component is the caller's
    dictionary afterwards (line 143 sets a key of it). *)
Definition batch_call {E V} (unit_ : V) (handles : V -> exn -> bool) (par : option (sched E)) (pw : bool)
           (process_func : Z -> V -> dict V -> W E run) (base_dir : V)
           (func_kwargs : option (dict V)) (errors_to_handle : option V) (roots : list Z)
  : option (dict V) * W E (list message * list run) :=
  let eth := match errors_to_handle with Some v => v | None => unit_ end in
  let kw := set_key "errors_to_handle" eth (match func_kwargs with Some d => d | None => [] end) in
  (match func_kwargs with Some _ => Some kw | None => None end,
   let* data := parallel_apply par pw (helper_call unit_ handles process_func base_dir kw) roots in
   let* keyed := wlift (mapM (fun x => let! z := item_root x in
                                       let! k := index_of z roots in Ok (k, x)) data) in
   let data := sorted_key keyed in
   let errors := collect_errors 0 data [] in
   wret (map (message_of (length roots)) errors,
         flat_map (fun x => match x with IRun r => [r] | IErr _ _ => [] end) data)).
