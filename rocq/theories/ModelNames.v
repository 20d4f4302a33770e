(** Model of estimators.py:265-316 get_latex_name. *)
From Coq Require Import List String Ascii Bool ZArith QArith Lia Decimal DecimalString DecimalZ.
From Verif Require Import Base.
Open Scope string_scope.

(** str of an integer *)
Definition str_int (z : Z) : string := NilZero.string_of_int (Z.to_int z).

(** '%f' % x for a number x of millionths: [micro] is x rounded to the nearest
    millionth (ties to even) and printed with six digits. *)
Definition round_half_even (q : Q) : Z :=
  let n := Qnum q in let d := Zpos (Qden q) in
  let f := (n / d)%Z in let r := (n mod d)%Z in
  if (2 * r <? d)%Z then f else if (d <? 2 * r)%Z then (f + 1)%Z
  else if Z.even f then f else (f + 1)%Z.
Definition millionths : Z := 1000000.
Definition negative (q : Q) : bool := (Qnum q <? 0)%Z.
Definition micro (q : Q) : Z := round_half_even (Qmult (if negative q then Qopp q else q) (inject_Z millionths)).
Fixpoint pad_digits (n : nat) (z : Z) : string :=
  match n with
  | O => ""
  | S m => pad_digits m (z / 10) ++ str_int (z mod 10)
  end.
Definition percent_f (q : Q) : string :=
  (if negative q then "-" else "") ++ str_int (micro q / millionths) ++ "." ++ pad_digits 6 (micro q mod millionths).

(** str.rstrip of one character *)
Fixpoint drop_char (c : ascii) (l : list ascii) : list ascii :=
  match l with [] => [] | x :: t => if Ascii.eqb x c then drop_char c t else l end.
Definition rstrip (c : ascii) (s : string) : string :=
  string_of_list_ascii (rev (drop_char c (rev (list_ascii_of_string s)))).

(** Keyword arguments: the two which are used, whether handle_indexerror is
    given, and the names of any others. *)
Record kwargs := mkKw { k_param : option Z; k_prob : option Q; k_handle : bool; k_other : list string }.
Definition no_kw : kwargs := mkKw None None false [].
(** A function by its __name__, or a functools.partial of one with keywords. *)
Inductive func_in := Plain (name : string) | Partial (name : string) (keywords : kwargs).

Definition has {A} (o : option A) : bool := match o with Some _ => true | None => false end.
Definition repeated (a b : kwargs) : bool :=
  (has (k_param a) && has (k_param b)) || (has (k_prob a) && has (k_prob b)) || (k_handle a && k_handle b) ||
  existsb (fun x => existsb (String.eqb x) (k_other b)) (k_other a).
Definition orb_opt {A} (a b : option A) : option A := match a with Some _ => a | None => b end.
Definition update (a b : kwargs) : kwargs :=
  mkKw (orb_opt (k_param a) (k_param b)) (orb_opt (k_prob a) (k_prob b)) (k_handle a || k_handle b)
       (k_other a ++ k_other b).

(** estimators.py:294-316: the names.  [lookup] is the dictionary look up; the
    product probability * 100 is exact here. *)
Definition ind_str (param_ind : Z) : string := "{\hat{" ++ str_int (param_ind + 1) ++ "}}".
Definition cred_str (p : Q) : string :=
  if Qeq_bool p (1 # 2) then "$\mathrm{median}("
  else "$\mathrm{C.I.}_{" ++ rstrip "." (rstrip "0" (percent_f (Qmult p (100 # 1)))) ++ "\%}(".
Definition lookup (name : string) (i : Z) (p : Q) : option string :=
  if name =? "count_samples" then Some "samples"
  else if name =? "logz" then Some "$\mathrm{log} \mathcal{Z}$"
  else if name =? "evidence" then Some "$\mathcal{Z}$"
  else if name =? "r_mean" then Some "$\overline{|\theta|}$"
  else if name =? "param_mean" then Some ("$\overline{\theta_" ++ ind_str i ++ "}$")
  else if name =? "param_squared_mean" then Some ("$\overline{\theta^2_" ++ ind_str i ++ "}$")
  else if name =? "param_cred" then Some (cred_str p ++ "\theta_" ++ ind_str i ++ ")$")
  else if name =? "r_cred" then Some (cred_str p ++ "|\theta|)$")
  else None.

(** estimators.py:265-316 *)
Definition get_latex_name (f : func_in) (kw : kwargs) : res string :=
  let! nk := match f with
             | Plain n => Ok (n, kw)
             | Partial n k => if repeated k kw then Raise AssertionError else Ok (n, update kw k)
             end in
  let '(name, kw) := nk in
  let i := match k_param kw with Some i => i | None => 0%Z end in
  let p := match k_prob kw with Some p => p | None => 1 # 2 end in
  match k_other kw with
  | _ :: _ => Raise TypeError
  | [] => match lookup name i p with Some s => Ok s | None => Raise KeyError end
  end.
