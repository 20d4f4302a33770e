(** The texts of the warnings of io_utils.py, and its timing_decorator. *)
From Coq Require Import List String Bool.
Import ListNotations.
From Verif Require Import ModelIO.
Local Open Scope string_scope. Local Open Scope list_scope.

(** [func], [err] and [save_name] are the name of the function, of the class of
    the error, and of the file.  io_utils.py:74-78, 83-88 and 90-93, in save_load_result.  Line 86 assigns to
    [msg] a second time. *)
Definition no_load_name_text (func : string) : string :=
  (func ++ " has load=True but cannot load because save_name=None")%string.
Definition load_text (func err save_name : string) : string :=
  let msg := (func ++ " had " ++ err ++ " loading file " ++ save_name ++ ".")%string in
  let msg := " Continuing without loading." in
  msg.
Definition no_save_name_text (func : string) : string :=
  (func ++ " has save=True but cannot save because save_name=None")%string.
(** io_utils.py:141-142, in pickle_save *)
Definition save_text (err : string) : string :=
  (err ++ " in pickle_save: continue without saving.")%string.

(** io_utils.py:14-36 timing_decorator.  [kw] are the keywords other than
    print_time, and [print_time] that one, if it is given.  The wrapped function
    returns a value or raises; [clock k] is the k-th value of time.time() and
    [fmt] is '%.3f'.  Returns the outcome and what is printed. *)
Definition timed {K A X : Type} (name : string) (func : K -> A + X) (clock : bool -> nat)
           (fmt : nat -> nat -> string) (print_time : option bool) (kw : K) : (A + X) * list string :=
  match print_time with
  | None | Some false => (func kw, [])
  | Some true =>
      let start_time := clock false in
      match func kw with
      | inl r => let end_time := clock true in
                 (inl r, [(name ++ " took " ++ fmt start_time end_time ++ " seconds")%string])
      | inr e => (inr e, [])
      end
  end.
