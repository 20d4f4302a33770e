(** C96: what the warnings of io_utils say, and timing_decorator. *)
From Coq Require Import List String Bool Lia.
Import ListNotations.
From Verif Require Import ModelIO ModelText.
Local Open Scope string_scope. Local Open Scope list_scope.

(** The text mentions a word. *)
Definition mentions (text word : string) : Prop := exists p q, text = (p ++ word ++ q)%string.

(** The warning about a file which could not be loaded does not name the
    function, the error or the file: it is the same for all of them. *)
Theorem C96_load_text : forall func err name func' err' name',
    load_text func err name = load_text func' err' name'.
Proof. reflexivity. Qed.
Print Assumptions C96_load_text.

Lemma mentions_length : forall text word, mentions text word -> String.length word <= String.length text.
Proof.
  intros text word (p & q & ->).
  assert (H : forall a b, String.length (a ++ b)%string = String.length a + String.length b).
  { induction a; intros; simpl; auto. }
  rewrite !H. lia.
Qed.
Theorem C96_load_names_refuted :
  ~ (forall func err name, mentions (load_text func err name) func) /\
  ~ (forall func err name, mentions (load_text func err name) err) /\
  ~ (forall func err name, mentions (load_text func err name) name).
Proof.
  set (long := "a name which is longer than the text").
  assert (H : forall a b c, ~ mentions (load_text a b c) long).
  { intros a b c Hm. apply mentions_length in Hm. vm_compute in Hm. lia. }
  split; [|split]; intros Hm.
  - exact (H _ _ _ (Hm long "" "")).
  - exact (H _ _ _ (Hm "" long "")).
  - exact (H _ _ _ (Hm "" "" long)).
Qed.
Print Assumptions C96_load_names_refuted.

(** The other warnings name the function or the class of the error, and so tell
    functions (errors) apart. *)
Lemma append_inj_r : forall a b c : string, (a ++ c)%string = (b ++ c)%string -> a = b.
Proof.
  assert (L : forall a b, String.length (a ++ b)%string = String.length a + String.length b).
  { induction a; intros; simpl; auto. }
  induction a as [|x a IH]; intros [|y b] c H; auto.
  - apply (f_equal String.length) in H. simpl in H. rewrite L in H. lia.
  - apply (f_equal String.length) in H. simpl in H. rewrite L in H. lia.
  - simpl in H. injection H as -> H. f_equal. eauto.
Qed.
Theorem C96_names : forall a b : string,
    mentions (no_load_name_text a) a /\ mentions (no_save_name_text a) a /\ mentions (save_text a) a /\
    (no_load_name_text a = no_load_name_text b -> a = b) /\
    (no_save_name_text a = no_save_name_text b -> a = b) /\
    (save_text a = save_text b -> a = b).
Proof.
  intros a b. repeat split.
  1-3: exists ""; eexists; reflexivity.
  all: unfold no_load_name_text, no_save_name_text, save_text; apply append_inj_r.
Qed.
Print Assumptions C96_names.

(** timing_decorator: the outcome is that of the function, called with the other
    keywords; a line is printed exactly if print_time=True and it returned. *)
Theorem C96_timed : forall K A X name (func : K -> A + X) clock fmt print_time kw,
    fst (timed name func clock fmt print_time kw) = func kw /\
    (snd (timed name func clock fmt print_time kw) <> [] <->
     print_time = Some true /\ exists r, func kw = inl r) /\
    (forall line, In line (snd (timed name func clock fmt print_time kw)) ->
       snd (timed name func clock fmt print_time kw) = [line] /\
       line = (name ++ " took " ++ fmt (clock false) (clock true) ++ " seconds")%string).
Proof.
  intros. unfold timed. destruct print_time as [[|]|]; [destruct (func kw) as [r|e] eqn:H|..];
    cbn [fst snd In].
  - split; [auto|]. split; [split; [eauto|discriminate]|]. intros line [<-|[]]. auto.
  - split; [auto|]. split; [split; [congruence|intros [_ [r Hr]]; discriminate]|tauto].
  - split; [auto|]. split; [split; [congruence|intros [Hr _]; discriminate]|tauto].
  - split; [auto|]. split; [split; [congruence|intros [Hr _]; discriminate]|tauto].
Qed.
Print Assumptions C96_timed.

Example C96_example_load :
  load_text "batch_process_data" "FileNotFoundError" "cache/runs" = " Continuing without loading.".
Proof. reflexivity. Qed.
Example C96_example_names :
  save_text "PermissionError" = "PermissionError in pickle_save: continue without saving." /\
  no_save_name_text "f" = "f has save=True but cannot save because save_name=None".
Proof. split; reflexivity. Qed.
Example C96_example_timed :
  timed (X := unit) "pickle_load" (fun k : nat => inl (S k)) (fun b => if b then 5 else 3)
        (fun s e => if Nat.eqb (e - s) 2 then "2.000" else "?") (Some true) 4 =
  (inl 5, ["pickle_load took 2.000 seconds"]).
Proof. reflexivity. Qed.
