(** Model of io_utils.py: saving and loading with pickle. *)
From Coq Require Import List String Ascii Bool Arith Lia.
Import ListNotations.

(** Python exceptions of this module.  [OSErr] is any OSError other than
    PermissionError (which is a subclass of it), by errno; IOError is the same
    class as OSError.  [Unpicklable], [BadPickle] and [FuncErr] stand for
    errors of pickle.dump, of pickle.load and of the decorated function which
    are none of the others. *)
Inductive ioexn :=
| PermissionErr | OSErr (errno : nat) | MemoryErr | EOFErr
| Unpicklable (n : nat) | BadPickle (n : nat) | FuncErr (n : nat).
Definition is_os (e : ioexn) : bool :=
  match e with PermissionErr | OSErr _ => true | _ => false end.
Definition is_memory (e : ioexn) : bool := match e with MemoryErr => true | _ => false end.

Inductive iores (A : Type) := Done (x : A) | Err (e : ioexn).
Arguments Done {A} x. Arguments Err {A} e.

Definition bytes := list nat.
Definition path := string.

(** Pickle: [dump v] are the bytes which are written for [v] and the error
    with which it stops, if [v] cannot be pickled (completely).  [load] reads
    the bytes of a file.  What is assumed of it: a complete pickle is read
    back, and a truncated one gives an error which is not an OSError. *)
Record pickler := mkPickler {
  value : Type;
  dump : value -> bytes * option ioexn;
  load : bytes -> iores value;
  load_dump : forall v, snd (dump v) = None -> load (fst (dump v)) = Done v;
  load_truncated : forall v k, (k < List.length (fst (dump v)) \/ snd (dump v) <> None) ->
      exists e, load (firstn k (fst (dump v))) = Err e /\ is_os e = false;
  dump_error : forall v e, snd (dump v) = Some e -> is_os e = false
}.

Inductive iowarning := WSave (e : ioexn) | WNoLoadName | WNoSaveName | WLoad.

(** The file system (contents of the files, and the directories), the
    warnings so far, and how often the decorated function was called. *)
Record io := mkIO {
  files : path -> option bytes; dirs : path -> bool; io_warn : list iowarning; calls : nat
}.

(** A computation passes through a list of intermediate states of the file
    system, at each of which the process may be killed, and ends with a result
    and a state. *)
Definition M (A : Type) : Type := io -> list io * (iores A * io).
Definition mret {A} (x : A) : M A := fun s => ([], (Done x, s)).
Definition mraise {A} (e : ioexn) : M A := fun s => ([], (Err e, s)).
Definition mbind {A B} (m : M A) (f : A -> M B) : M B :=
  fun s => match m s with
           | (t, (Done x, s')) => let '(t', r) := f x s' in (t ++ t', r)
           | (t, (Err e, s')) => (t, (Err e, s'))
           end.
Notation "'do' x <- m ; k" := (mbind m (fun x => k)) (at level 200, x pattern, m at level 100, k at level 200).
(** [try: m except e if p e: h e] *)
Definition mcatch {A} (m : M A) (p : ioexn -> bool) (h : ioexn -> M A) : M A :=
  fun s => match m s with
           | (t, (Err e, s')) => if p e then let '(t', r) := h e s' in (t ++ t', r) else (t, (Err e, s'))
           | x => x
           end.
Definition mget : M io := fun s => ([], (Done s, s)).
Definition mwarn (x : iowarning) : M unit :=
  fun s => ([], (Done tt, mkIO (files s) (dirs s) (x :: io_warn s) (calls s))).

(** One change of the file system, after which the process may be killed. *)
Definition set_file (p : path) (b : bytes) (s : io) : io :=
  mkIO (fun q => if String.eqb q p then Some b else files s q) (dirs s) (io_warn s) (calls s).
Definition step (f : io -> io) : M unit := fun s => ([f s], (Done tt, f s)).

(** Errors of the operating system during one call: in os.makedirs, when the
    file is opened, after some number of bytes have been written, when it is
    closed, and when a file is opened for reading. *)
Record faults := mkFaults {
  f_makedirs : option ioexn; f_open : option ioexn;
  f_write : option (nat * ioexn); f_close : option ioexn; f_read : option ioexn
}.
Definition no_faults := mkFaults None None None None None.
Definition fail (f : option ioexn) : M unit :=
  match f with Some e => mraise e | None => mret tt end.

(** os.path.dirname: what precedes the last slash, without slashes at its end
    unless it consists of slashes. *)
Definition is_slash (c : ascii) : bool := Ascii.eqb c "/".
Fixpoint drop_while {A} (p : A -> bool) (l : list A) : list A :=
  match l with [] => [] | x :: t => if p x then drop_while p t else l end.
Definition dirname (p : path) : path :=
  let head := drop_while (fun c => negb (is_slash c)) (rev (list_ascii_of_string p)) in
  string_of_list_ascii (if forallb is_slash head then rev head else rev (drop_while is_slash head)).

(** open(filename, 'wb'), then writing the bytes one after another. *)
Fixpoint write_from (p : path) (done todo : bytes) : M unit :=
  match todo with
  | [] => mret tt
  | x :: t => do _ <- step (set_file p (done ++ [x])); write_from p (done ++ [x]) t
  end.
Definition write_file (f : faults) (p : path) (b : bytes) (e : option ioexn) : M unit :=
  do _ <- fail (f_open f);
  do _ <- step (set_file p []);
  do _ <- match f_write f with
          | Some (k, err) => do _ <- write_from p [] (firstn k b); mraise err
          | None => write_from p [] b
          end;
  do _ <- fail e;
  fail (f_close f).

(** The default extension, io_utils.py:117 and 146. *)
Definition extension : string := ".pkl".
Definition pkl (name : string) : path := (name ++ extension)%string.
(** [now] is time.asctime() with the spaces replaced. *)
Definition stamped (name now : string) : path := (name ++ "_" ++ now ++ extension)%string.

(** io_utils.py:132-142 the classes caught when writing.  PermissionError is
    assigned in the function and so is a local variable, unbound in line 130;
    UnboundLocalError is a NameError, so it always becomes IOError. *)
Definition caught_saving (e : ioexn) : bool := is_memory e || is_os e.

(** io_utils.py:100-142 pickle_save; of the directories made by os.makedirs only the
    last one is recorded, not its parents. *)
Definition pickle_save (P : pickler) (f : faults) (now : string) (data : value P) (name : string)
           (overwrite_existing : bool) : M unit :=
  do s <- mget;
  let filename := pkl name in
  let d := dirname filename in
  do _ <- (if negb (dirs s d || match files s d with Some _ => true | None => false end)
              && negb (String.eqb d "")
           then do _ <- fail (f_makedirs f);
                step (fun s => mkIO (files s) (fun q => String.eqb q d || dirs s q) (io_warn s) (calls s))
           else mret tt);
  let filename := if match files s filename with Some _ => true | None => false end && negb overwrite_existing
                  then stamped name now else filename in
  mcatch (write_file f filename (fst (dump P data)) (snd (dump P data)))
         caught_saving (fun e => mwarn (WSave e)).

(** io_utils.py:145-164 pickle_load *)
Definition pickle_load (P : pickler) (f : faults) (name : string) : M (value P) :=
  do _ <- fail (f_read f);
  do s <- mget;
  match files s (pkl name) with
  | None => mraise (OSErr 2)                                   (* FileNotFoundError *)
  | Some b => match load P b with Done v => mret v | Err e => mraise e end
  end.

(** io_utils.py:39-97 save_load_result: one call of the decorated function with
    its arguments fixed.  [func n] is what its n-th call returns or raises; it
    does not itself touch files. *)
Definition call {A} (func : nat -> iores A) : M A :=
  fun s => let s' := mkIO (files s) (dirs s) (io_warn s) (S (calls s)) in
           ([], (func (calls s), s')).
(** io_utils.py:68-72: the keyword arguments of a decorated call. *)
Record kwargs := mkKwargs {
  k_save_name : option string; k_save : option bool; k_load : option bool;
  k_overwrite : bool; k_warn : bool
}.
Definition default_kwargs (name : option string) := mkKwargs name None None true false.
(** [save_name is not None], and pop with a default. *)
Definition given {A} (o : option A) : bool := match o with Some _ => true | None => false end.
Definition or_default {A} (o : option A) (d : A) : A := match o with Some x => x | None => d end.
(** io_utils.py:39-97: the wrapper. *)
Definition decorated (P : pickler) (f : faults) (now : string) (func : nat -> iores (value P))
           (kw : kwargs) : M (value P) :=
  let save := or_default (k_save kw) (given (k_save_name kw)) in
  let load := or_default (k_load kw) (given (k_save_name kw)) in
  do loaded <- (if load then
                  match k_save_name kw with
                  | None => do _ <- mwarn WNoLoadName; mret None
                  | Some name =>
                      mcatch (do v <- pickle_load P f name; mret (Some v)) is_os
                             (fun _ => do _ <- (if k_warn kw then mwarn WLoad else mret tt); mret None)
                  end
                else mret None);
  match loaded with
  | Some v => mret v
  | None =>
      do result <- call func;
      do _ <- (if save then
                 match k_save_name kw with
                 | None => mwarn WNoSaveName
                 | Some name => pickle_save P f now result name (k_overwrite kw)
                 end
               else mret tt);
      mret result
  end.
