(** Model of write_polychord_output.py:164-262 write_stats_file and
    data_processing.py:373-445 process_polychord_stats.  Texts are lists of
    characters; a file is a text. *)
From Coq Require Import List String Ascii Bool ZArith Lia Decimal DecimalString.
From Verif Require Import Base ModelNames.
Import ListNotations.
Local Open Scope list_scope.
Local Open Scope nat_scope.

(** Texts and files. *)
Definition text := list ascii.
Definition la (s : string) : text := list_ascii_of_string s.
Definition newline : ascii := ascii_of_nat 10.
(** str.split() without arguments: maximal runs of characters which are not
    white space.  A character is a code point below 256. *)
Definition is_ws (c : ascii) : bool :=
  let n := nat_of_ascii c in (28 <=? n) && (n <=? 32) || (9 <=? n) && (n <=? 13) || (n =? 133) || (n =? 160).
Fixpoint split_go (cur : text) (l : text) : list text :=
  match l with
  | [] => match cur with [] => [] | _ => [rev cur] end
  | c :: t => if is_ws c then match cur with [] => split_go [] t | _ => rev cur :: split_go [] t end
              else split_go (c :: cur) t
  end.
Definition split_ws (l : text) : list text := split_go [] l.
(** file.readlines().  Only newline ends a line: of files with carriage returns
    what open() has replaced by newlines is meant. *)
Fixpoint readlines_go (cur : text) (l : text) : list text :=
  match l with
  | [] => match cur with [] => [] | _ => [rev cur] end
  | c :: t => if Ascii.eqb c newline then rev (c :: cur) :: readlines_go [] t else readlines_go (c :: cur) t
  end.
Definition readlines (l : text) : list text := readlines_go [] l.

Definition text_eqb (a b : text) : bool := if list_eq_dec ascii_dec a b then true else false.
(** [prefix in text] and [sub in text] *)
Fixpoint starts_with (p l : text) : bool :=
  match p, l with
  | [], _ => true
  | x :: p', y :: l' => Ascii.eqb x y && starts_with p' l'
  | _, [] => false
  end.
Fixpoint contains (p l : text) : bool :=
  starts_with p l || match l with [] => false | _ :: t => contains p t end.
(** The regular expression of lines 403 and 405: what follows the first '=', up
    to the end of the line. *)
Fixpoint until_newline (l : text) : text :=
  match l with [] => [] | c :: t => if Ascii.eqb c newline then [] else c :: until_newline t end.
Fixpoint after_equals (l : text) : option text :=
  match l with [] => None | c :: t => if Ascii.eqb c "=" then Some (until_newline t) else after_equals t end.
(** " ".join *)
Fixpoint join_sp (l : list text) : text :=
  match l with [] => [] | [x] => x | x :: t => x ++ " "%char :: join_sp t end.
(** str.rjust and str.ljust *)
Definition rjust (n : nat) (l : text) : text := repeat " "%char (n - length l) ++ l.
Definition ljust (n : nat) (l : text) : text := l ++ repeat " "%char (n - length l).

(** Characters of a printed float. *)
Definition number_char (c : ascii) : bool := existsb (Ascii.eqb c) (la "0123456789+-.einfa").
(** Two dashes next to each other. *)
Fixpoint no_dashes (l : text) : Prop :=
  match l with
  | [] => True
  | c :: t => match t with d :: _ => ~ (c = "-"%char /\ d = "-"%char) | [] => True end /\ no_dashes t
  end.

(** Floats: any type with a printer (str) and a reader (float; None is
    ValueError) which recovers what was printed.  The printed form is not
    empty, has only characters of numbers and no two dashes in a row. *)
Record floats := mkFloats {
  num : Type;
  zero : num;
  show : num -> text;
  read : text -> option num;
  read_show : forall x, read (show x) = Some x;
  show_chars : forall x c, In c (show x) -> number_char c = true;
  show_ne : forall x, show x <> [];
  show_dash : forall x, no_dashes (show x)
}.
Arguments zero {f}. Arguments show {f}. Arguments read {f}.

(** str and int of integers.  int is only modelled for plain decimal numbers
    with an optional minus sign. *)
Definition show_int (z : Z) : text := la (str_int z).
Definition read_int (l : text) : option Z :=
  option_map Z.of_int (NilZero.int_of_string (string_of_list_ascii l)).

(** Values of nlike (integers or nan) and of avnlike, avnlikeslice: a number, a
    list or a tuple. *)
Inductive counts := CNum (z : Z) | CList (l : list Z) | CTuple (l : list Z) | CNan.
Inductive averages (F : floats) := ANum (x : num F) | AList (l : list (num F)) | ATuple (l : list (num F)).
Arguments ANum {F}. Arguments AList {F}. Arguments ATuple {F}.
Definition show_counts (v : counts) : text :=
  match v with
  | CNum z => show_int z
  | CList l | CTuple l => join_sp (map show_int l)
  | CNan => la "nan"
  end.
Definition show_averages {F} (v : averages F) : text :=
  match v with ANum x => show x | AList l | ATuple l => join_sp (map show l) end.

(** The dictionary returned by both functions; [param_means] and
    [param_mean_errs] may be missing when read. *)
Record stats (F : floats) := mkStats {
  st_root : text; st_base : text;
  st_logZ : num F; st_logZerr : num F;
  st_logZs : list (num F); st_logZerrs : list (num F);
  st_ncluster : Z; st_nposterior : Z; st_nequals : Z; st_ndead : Z; st_nlive : Z;
  st_nlike : counts; st_avnlike : averages F; st_avnlikeslice : averages F;
  st_means : option (list (num F)); st_errs : option (list (num F))
}.
Arguments mkStats {F}. Arguments st_root {F}. Arguments st_base {F}. Arguments st_logZ {F}. Arguments st_logZerr {F}.
Arguments st_logZs {F}. Arguments st_logZerrs {F}. Arguments st_ncluster {F}. Arguments st_nposterior {F}.
Arguments st_nequals {F}. Arguments st_ndead {F}. Arguments st_nlive {F}. Arguments st_nlike {F}.
Arguments st_avnlike {F}. Arguments st_avnlikeslice {F}. Arguments st_means {F}. Arguments st_errs {F}.

(** The argument of write_stats_file: any keys may be missing, [in_extra] are
    the keys which are not among those known. *)
Record stats_in (F : floats) := mkIn {
  in_root : option text; in_base : option text;
  in_logZ : option (num F); in_logZerr : option (num F);
  in_logZs : option (list (num F)); in_logZerrs : option (list (num F));
  in_ncluster : option Z; in_nposterior : option Z; in_nequals : option Z; in_ndead : option Z; in_nlive : option Z;
  in_nlike : option counts; in_avnlike : option (averages F); in_avnlikeslice : option (averages F);
  in_means : option (list (num F)); in_errs : option (list (num F)); in_extra : list text
}.
Arguments mkIn {F}. Arguments in_root {F}. Arguments in_base {F}. Arguments in_logZ {F}. Arguments in_logZerr {F}.
Arguments in_logZs {F}. Arguments in_logZerrs {F}. Arguments in_ncluster {F}. Arguments in_nposterior {F}.
Arguments in_nequals {F}. Arguments in_ndead {F}. Arguments in_nlive {F}. Arguments in_nlike {F}.
Arguments in_avnlike {F}. Arguments in_avnlikeslice {F}. Arguments in_means {F}. Arguments in_errs {F}.
Arguments in_extra {F}.
Definition dflt {A} (o : option A) (d : A) : A := match o with Some x => x | None => d end.

(** os.path.join of two parts *)
Definition path_join (a b : text) : text :=
  if starts_with (la "/") b then b
  else match a with
       | [] => b
       | _ => if Ascii.eqb (last a " "%char) "/" then a ++ b else a ++ la "/" ++ b
       end.

(** write_polychord_output.py:210-257: the lines of the file. *)
Definition head_lines : list text := map la
  ["Evidence estimates:";
   "===================";
   "  - The evidence Z is a log-normally distributed, with location and scale parameters mu and sigma.";
   "  - We denote this as log(Z) = mu +/- sigma.";
   "";
   "Global evidence:";
   "----------------";
   ""]%string.
(** write_polychord_output.py:227-229 *)
Definition cluster_line {F} (i : nat) (lz lzerr : num F) : text :=
  la "log(Z_ " ++ rjust 2 (show_int (Z.of_nat (i + 1))) ++ la ")  =  " ++ show lz ++ la " +/-   " ++ show lzerr.
(** write_polychord_output.py:253-256 *)
Definition param_line {F} (i : nat) (m e : num F) : text :=
  ljust 3 (show_int (Z.of_nat (i + 1))) ++ la "  " ++ show m ++ la " +/-   " ++ show e.
Definition enumerate {A} (l : list A) : list (nat * A) := combine (seq 0 (length l)) l.
(** write_polychord_output.py:210-257: all lines. *)
Definition stats_lines {F} (o : stats F) : list text :=
  head_lines ++
  [la "log(Z)       =  " ++ show (st_logZ o) ++ la " +/-   " ++ show (st_logZerr o);
   []; []; la "Local evidences:"; la "----------------"; []] ++
  map (fun '(i, (lz, le)) => cluster_line i lz le) (enumerate (combine (st_logZs o) (st_logZerrs o))) ++
  [[]; []; la "Run-time information:"; la "---------------------"; [];
   la " ncluster:          0 /       1";
   la " nposterior:        " ++ show_int (st_nposterior o);
   la " nequals:           " ++ show_int (st_nequals o);
   la " ndead:          " ++ show_int (st_ndead o);
   la " nlive:             " ++ show_int (st_nlive o);
   la " nlike:         " ++ show_counts (st_nlike o);
   la " <nlike>:       " ++ show_averages (st_avnlike o) ++ la "   (    " ++
     show_averages (st_avnlikeslice o) ++ la " per slice )";
   []; []; la "Dim No.       Mean        Sigma"] ++
  map (fun '(i, (m, e)) => param_line i m e) (enumerate (combine (dflt (st_means o) []) (dflt (st_errs o) []))) ++
  [la "-------------------------------"].

(** The file system: what is in each file. *)
Definition store := text -> option text.
(** write_polychord_output.py:164-262.  Writing does not fail here. *)
Definition write_stats_file {F} (d : stats_in F) (s : store) : res (stats F * store) :=
  match in_root d, in_base d with
  | Some root, Some base =>
      let! _ := assertb (match in_extra d with [] => true | _ => false end) in
      let o := mkStats root base (dflt (in_logZ d) zero) (dflt (in_logZerr d) zero)
                 (dflt (in_logZs d) [zero]) (dflt (in_logZerrs d) [zero]) (dflt (in_ncluster d) 1%Z)
                 (dflt (in_nposterior d) 0%Z) (dflt (in_nequals d) 0%Z) (dflt (in_ndead d) 0%Z) (dflt (in_nlive d) 0%Z)
                 (dflt (in_nlike d) (CNum 0)) (dflt (in_avnlike d) (ANum zero)) (dflt (in_avnlikeslice d) (ANum zero))
                 (Some (dflt (in_means d) [zero; zero; zero])) (Some (dflt (in_errs d) [zero; zero; zero])) in
      let path := path_join base (root ++ la ".stats") in
      let file := flat_map (fun l => l ++ [newline]) (stats_lines o) in
      Ok (o, fun q => if text_eqb q path then Some file else s q)
  | _, _ => Raise AssertionError
  end.

(** ** Reading *)
Definition get {A} (l : list A) (n : nat) : res A :=
  match nth_error l n with Some x => Ok x | None => Raise IndexError end.
Definition value {A} (o : option A) : res A := match o with Some x => Ok x | None => Raise ValueError end.
Definition word (l : text) (n : nat) : res text := get (split_ws l) n.

(** data_processing.py:399-405, over the lines from 14. *)
Fixpoint read_clusters {F} (lines : list text) : res (list (num F) * list (num F)) :=
  match lines with
  | [] => Ok ([], [])
  | line :: t =>
      if negb (text_eqb (firstn 5 line) (la "log(Z")) then Ok ([], [])
      else let! tail := match after_equals line with Some x => Ok x | None => Raise IndexError end in
           let! w0 := word tail 0 in let! z := value (read w0) in
           let! w2 := word tail 2 in let! e := value (read w2) in
           let! rest := read_clusters t in
           Ok (z :: fst rest, e :: snd rest)
  end.
(** data_processing.py:437-444 *)
Fixpoint read_params {F} (lines : list text) : res (list (num F) * list (num F)) :=
  match lines with
  | [] => Ok ([], [])
  | line :: t =>
      if contains (la "------------------") line then read_params t
      else let! w1 := word line 1 in let! m := value (read w1) in
           let! w3 := word line 3 in let! e := value (read w3) in
           let! rest := read_params t in
           Ok (m :: fst rest, e :: snd rest)
  end.
Fixpoint index_of (w : text) (l : list text) : option nat :=
  match l with [] => None | x :: t => if text_eqb x w then Some 0 else option_map S (index_of w t) end.
(** data_processing.py:425-432: a list of one number is replaced by it. *)
Definition one_or_list {F} (l : list (num F)) : averages F := match l with [x] => ANum x | _ => AList l end.

(** data_processing.py:373-445; a missing file is an OSError. *)
Definition process_polychord_stats {F} (root base : text) (s : store) : res (stats F) :=
  match s (path_join base root ++ la ".stats") with
  | None => Raise OSError
  | Some file =>
      let lines := readlines file in
      let! l8 := get lines 8 in
      let! w2 := word l8 2 in let! logZ := value (read w2) in
      let! w4 := word l8 4 in let! logZerr := value (read w4) in
      let! cl := @read_clusters F (skipn 14 lines) in
      let '(logZs, logZerrs) := cl in
      let n := length logZs in
      let int_at k := let! l := get lines (k + n) in let! w := word l 1 in value (read_int w) in
      let! nposterior := int_at 20 in
      let! nequals := int_at 21 in
      let! ndead := int_at 22 in
      let! nlive := int_at 23 in
      let! l24 := get lines (24 + n) in
      let nlike := match mapM (fun w => value (read_int w)) (tl (split_ws l24)) with
                   | Ok [z] => CNum z
                   | Ok l => CList l
                   | Raise _ => CNan
                   end in
      let! l25 := get lines (25 + n) in
      let ws := split_ws l25 in
      let! i := value (index_of (la "(") ws) in
      let! av := mapM (fun w => value (read w)) (firstn (i - 1) (skipn 1 ws)) in
      let! avs := mapM (fun w => value (read w)) (firstn (length ws - 3 - (i + 1)) (skipn (i + 1) ws)) in
      let! pm := if 29 + n <? length lines
                 then let! r := @read_params F (skipn (29 + n) lines) in Ok (Some (fst r), Some (snd r))
                 else Ok (None, None) in
      Ok (mkStats root base logZ logZerr logZs logZerrs (Z.of_nat n) nposterior nequals ndead nlive nlike
                  (one_or_list av) (one_or_list avs) (fst pm) (snd pm))
  end.
