(** C46-C49: saving and loading results. *)
From Coq Require Import List String Ascii Bool Arith Lia.
Import ListNotations.
From Verif Require Import ModelIO ProofIO.

(** ** C46: saved results are reloaded *)

(** If pickle_save ends without an error and without a warning, then
    pickle_load of the name returns the object, whatever was in the file
    system before. *)
Theorem C46_save_load : forall P f now v name overwrite s t s',
  pickle_save P f now v name overwrite s = (t, (Done tt, s')) ->
  io_warn s' = io_warn s ->
  overwrite = true \/ files s (pkl name) = None ->
  forall f', f_read f' = None ->
  pickle_load P f' name s' = ([], (Done v, s')).
Proof.
  intros P f now v name ow s t s' H Hw Ho f' Hr.
  pose proof (pickle_save_ends P f now v name ow s) as E. unfold final, result in E. rewrite H in E. cbn [fst snd] in E.
  destruct E as [(e & _ & E)|[E|(er & _ & E)]]; [discriminate| |].
  - destruct E as (_ & _ & _ & Hf & _ & _ & Hd & _).
    replace (written name now ow s) with (pkl name) in Hf.
    + rewrite (pickle_load_ok P f' name s' _ Hr Hf). rewrite (load_dump P v Hd). reflexivity.
    + unfold written. destruct Ho as [->|Ho]; [rewrite andb_false_r; reflexivity|]. rewrite Ho. reflexivity.
  - exfalso. destruct (caught_saving er); [|destruct E as [E _]; discriminate].
    destruct E as (_ & E & _). rewrite Hw in E. apply (f_equal (@List.length _)) in E. cbn in E. lia.
Qed.
Print Assumptions C46_save_load.

(** Without errors of the operating system an object which can be pickled is
    saved. *)
Theorem C46_saves : forall P f now v name overwrite s,
  f_makedirs f = None -> f_open f = None -> f_write f = None -> f_close f = None ->
  snd (dump P v) = None ->
  exists t s', pickle_save P f now v name overwrite s = (t, (Done tt, s')) /\
    io_warn s' = io_warn s /\ calls s' = calls s.
Proof.
  intros P f now v name ow s H1 H2 H3 H4 H5.
  pose proof (pickle_save_ends P f now v name ow s) as E. unfold final, result in E.
  destruct (pickle_save P f now v name ow s) as [t [r s']]. cbn [fst snd] in E.
  destruct E as [(e & E & _)|[E|(er & [E|[[k E]|[E|E]]] & _)]]; try congruence.
  destruct E as (-> & E1 & E2 & _). exists t, s'. auto.
Qed.
Print Assumptions C46_saves.

(** At no point of pickle_save does any file other than the one which it
    writes change: this is name.pkl, or the time-stamped name if name.pkl
    exists and is not to be overwritten. *)
Theorem C46_other_files : forall P f now v name overwrite s s' q,
  In s' (states (pickle_save P f now v name overwrite) s) ->
  q <> pkl name -> overwrite = true \/ files s (pkl name) = None \/ q <> stamped name now ->
  files s' q = files s q.
Proof.
  intros P f now v name ow s s' q Hin H1 H2.
  destruct (pickle_save_states P f now v name ow s s' Hin) as [H _]. apply H.
  unfold written. destruct (given (files s (pkl name)) && negb ow) eqn:E; [|exact H1].
  apply andb_true_iff in E. destruct E as [E1 E2].
  destruct H2 as [->|[H2|H2]]; [discriminate|rewrite H2 in E1; discriminate|exact H2].
Qed.
Print Assumptions C46_other_files.

(** *** A history of calls *)
(** What can happen after the result is stored: saves and decorated calls
    with any names, errors, functions and times, completed, failed or killed. *)
Inductive event (P : pickler) :=
| ESave (f : faults) (now : string) (v : value P) (name : string) (overwrite : bool)
| ECall (f : faults) (now : string) (func : nat -> iores (value P)) (kw : kwargs).
Arguments ESave {P}. Arguments ECall {P}.
Definition happens {P} (ev : event P) (s s' : io) : Prop :=
  match ev with
  | ESave f now v name ow => In s' (states (pickle_save P f now v name ow) s)
  | ECall f now func kw => In s' (states (decorated P f now func kw) s)
  end.
(** The event has another name than the file p. *)
Definition elsewhere {P} (p : path) (ev : event P) : Prop :=
  match ev with
  | ESave _ now _ name _ => pkl name <> p /\ stamped name now <> p
  | ECall _ now _ kw => match k_save_name kw with
                        | Some name => pkl name <> p /\ stamped name now <> p
                        | None => True end
  end.
Inductive history {P} (p : path) : io -> io -> Prop :=
| history_none : forall s, history p s s
| history_more : forall s1 s2 s3 (ev : event P),
    elsewhere p ev -> happens ev s1 s2 -> history p s2 s3 -> history p s1 s3.

Definition fixed (p : path) (s s' : io) : Prop := files s' p = files s p.
Lemma fixed_refl p s : fixed p s s. Proof. reflexivity. Qed.
Lemma fixed_trans p s1 s2 s3 : fixed p s1 s2 -> fixed p s2 s3 -> fixed p s1 s3.
Proof. unfold fixed. congruence. Qed.

Lemma save_fixed P f now v name ow p :
  pkl name <> p -> stamped name now <> p -> keeps (fixed p) (pickle_save P f now v name ow).
Proof.
  intros H1 H2 s s' Hin. destruct (pickle_save_states _ _ _ _ _ _ _ _ Hin) as [H _].
  apply H. unfold written. destruct (_ && _); congruence.
Qed.
Lemma call_fixed {A} (func : nat -> iores A) p : keeps (fixed p) (call func).
Proof. apply keeps_silent; [apply fixed_refl|]. intros s. split; reflexivity. Qed.
Lemma warn_fixed x p : keeps (fixed p) (mwarn x).
Proof. apply keeps_silent; [apply fixed_refl|]. intros s. split; reflexivity. Qed.
Lemma load_fixed P f name p : keeps (fixed p) (pickle_load P f name).
Proof.
  assert (Hr := fixed_refl p). assert (Ht := fixed_trans p).
  unfold pickle_load. apply keeps_bind; auto; [apply keeps_fail; auto|intros _].
  apply keeps_bind; auto; [apply keeps_get; auto|intros s].
  destruct (files s (pkl name)) as [b|]; [destruct (load P b)|]; auto using keeps_ret, keeps_raise.
Qed.
Lemma decorated_fixed P f now func kw p :
  elsewhere p (@ECall P f now func kw) -> keeps (fixed p) (decorated P f now func kw).
Proof.
  assert (Hr := fixed_refl p). assert (Ht := fixed_trans p).
  intros H. unfold decorated, elsewhere in *.
  apply keeps_bind; auto.
  - destruct (or_default (k_load kw) _); [|apply keeps_ret; auto].
    destruct (k_save_name kw) as [name|].
    + apply keeps_catch; auto.
      * apply keeps_bind; auto; [apply load_fixed|intros; apply keeps_ret; auto].
      * intros _. apply keeps_bind; auto; [destruct (k_warn kw); [apply warn_fixed|apply keeps_ret; auto]|].
        intros _. apply keeps_ret; auto.
    + apply keeps_bind; auto; [apply warn_fixed|intros _; apply keeps_ret; auto].
  - intros [v|]; [apply keeps_ret; auto|].
    apply keeps_bind; auto; [apply call_fixed|intros r].
    apply keeps_bind; auto; [|intros _; apply keeps_ret; auto].
    destruct (or_default (k_save kw) _); [|apply keeps_ret; auto].
    destruct (k_save_name kw) as [name|]; [|apply warn_fixed].
    apply save_fixed; apply H.
Qed.
Lemma history_fixed P p s s' : @history P p s s' -> fixed p s s'.
Proof.
  induction 1 as [s|s1 s2 s3 ev He Hh _ IH]; [reflexivity|].
  apply (fixed_trans p s1 s2); [|exact IH].
  destruct ev as [f now v name ow|f now func kw]; cbn in Hh.
  - apply (save_fixed P f now v name ow p) in Hh; [exact Hh|apply He|apply He].
  - apply (decorated_fixed P f now func kw p He) in Hh. exact Hh.
Qed.

(** If the file holds a complete pickle, a decorated call with that save_name
    and load returns its value; the function is not called and nothing is
    changed. *)
Lemma decorated_loads P f now func kw name v s :
  k_save_name kw = Some name -> or_default (k_load kw) true = true -> f_read f = None ->
  files s (pkl name) = Some (fst (dump P v)) -> snd (dump P v) = None ->
  decorated P f now func kw s = ([], (Done v, s)).
Proof.
  intros Hn Hl Hr Hf Hd. unfold decorated. rewrite Hn. cbn [given]. rewrite Hl.
  unfold mbind at 1, mcatch. unfold mbind at 1.
  rewrite (pickle_load_ok P f name s _ Hr Hf), (load_dump P v Hd). cbn. reflexivity.
Qed.
Lemma decorated_computes P f now func kw name s :
  k_save_name kw = Some name -> or_default (k_save kw) true = true ->
  f_read f = None -> files s (pkl name) = None ->
  result (decorated P f now func kw) s =
    match func (calls s) with
    | Err e => Err e
    | Done v => match result (pickle_save P f now v name (k_overwrite kw))
       (mkIO (files s) (dirs s) (if or_default (k_load kw) true && k_warn kw then WLoad :: io_warn s else io_warn s) (S (calls s)))
       with Done _ => Done v | Err e => Err e end
    end /\
  final (decorated P f now func kw) s =
    let s1 := mkIO (files s) (dirs s) (if or_default (k_load kw) true && k_warn kw then WLoad :: io_warn s else io_warn s) (S (calls s)) in
    match func (calls s) with
    | Err e => s1
    | Done v => final (pickle_save P f now v name (k_overwrite kw)) s1
    end.
Proof.
  intros Hn Hs Hr Hf.
  unfold decorated, result, final. rewrite Hn. cbn [given]. rewrite Hs.
  destruct (or_default (k_load kw) true).
  - unfold mbind at 1 6. unfold pickle_load, fail. rewrite Hr.
    unfold mcatch, mbind, mret, mget, mraise, mwarn, call. rewrite Hf.
    destruct (k_warn kw); cbn [fst snd is_os app andb io_warn files dirs calls];
    (destruct (func (calls s)) as [v|e]; cbn [fst snd]; [|split; reflexivity]);
    destruct (pickle_save P f now v name (k_overwrite kw) _) as [t [[x|e] s']]; split; reflexivity.
  - unfold mbind, mret, call. cbn [andb].
    destruct (func (calls s)) as [v|e]; cbn [fst snd io_warn files dirs calls]; [|split; reflexivity].
    destruct (pickle_save P f now v name (k_overwrite kw) _) as [t [[x|e] s']]; split; reflexivity.
Qed.

(** A decorated function with save_name is called once: its value is stored
    and every later call with that name - after any history of saves and
    decorated calls with other names - returns the stored value without calling
    the function (whatever that would return now) or changing anything. *)
Theorem C46_computes_once : forall P f now func name s v,
  f_makedirs f = None -> f_open f = None -> f_write f = None -> f_close f = None -> f_read f = None ->
  files s (pkl name) = None ->                       (* nothing is stored *)
  func (calls s) = Done v -> snd (dump P v) = None ->  (* what the function returns *)
  forall s1, final (decorated P f now func (default_kwargs (Some name))) s = s1 ->
  result (decorated P f now func (default_kwargs (Some name))) s = Done v /\
  calls s1 = S (calls s) /\
  forall s2, @history P (pkl name) s1 s2 ->
  forall f' now' func' kw, f_read f' = None ->
    k_save_name kw = Some name -> or_default (k_load kw) true = true ->
    decorated P f' now' func' kw s2 = ([], (Done v, s2)).
Proof.
  intros P f now func name s v H1 H2 H3 H4 H5 Hf Hv Hd s1 Hs1.
  destruct (decorated_computes P f now func (default_kwargs (Some name)) name s eq_refl eq_refl H5 Hf) as [Hres Hfin].
  cbn [k_load k_warn k_overwrite default_kwargs or_default andb] in Hres, Hfin. rewrite Hv in Hres, Hfin.
  cbv zeta in Hfin. rewrite Hs1 in Hfin. clear Hs1.
  set (s0 := mkIO (files s) (dirs s) (io_warn s) (S (calls s))) in *.
  pose proof (pickle_save_ends P f now v name true s0) as E.
  destruct E as [(e & E & _)|[E|(er & [E|[[k E]|[E|E]]] & _)]]; try congruence.
  destruct E as (E1 & E2 & E3 & E4 & _).
  rewrite E1 in Hres. rewrite <- Hfin in *. split; [exact Hres|]. split; [exact E3|].
  intros s2 Hh f' now' func' kw Hr Hn Hl.
  apply (decorated_loads P f' now' func' kw name v s2 Hn Hl Hr); [|exact Hd].
  rewrite (history_fixed P _ _ _ Hh). replace (written name now true s0) with (pkl name) in E4; [exact E4|].
  unfold written. rewrite andb_false_r. reflexivity.
Qed.
Print Assumptions C46_computes_once.

(** ** C47: overwrite_existing=False *)

(** A file at the requested name is the same at every point of
    pickle_save(..., overwrite_existing=False), and only the time-stamped file
    can change. *)
Theorem C47_requested_kept : forall P f now v name s s',
  files s (pkl name) <> None ->
  In s' (states (pickle_save P f now v name false) s) ->
  files s' (pkl name) = files s (pkl name) /\
  forall q, q <> stamped name now -> files s' q = files s q.
Proof.
  intros P f now v name s s' He Hin.
  destruct (pickle_save_states P f now v name false s s' Hin) as [H _].
  assert (E : written name now false s = stamped name now).
  { unfold written. destruct (files s (pkl name)); [reflexivity|contradiction]. }
  rewrite E in H. split; [apply H|exact H].
  intros X. symmetry in X. apply stamped_pkl in X. exact X.
Qed.
Print Assumptions C47_requested_kept.

(** If the time-stamped name is not taken, no existing file changes. *)
Theorem C47_unique_times : forall P f now v name s s' q b,
  files s (stamped name now) = None ->
  In s' (states (pickle_save P f now v name false) s) ->
  files s q = Some b -> files s' q = Some b.
Proof.
  intros P f now v name s s' q b Ht Hin Hq.
  destruct (pickle_save_states P f now v name false s s' Hin) as [H _].
  rewrite H; [exact Hq|]. intros ->. unfold written in Hq.
  destruct (files s (pkl name)) eqn:E; cbn in Hq; congruence.
Qed.
Print Assumptions C47_unique_times.

(** A simple pickler: numbers, written in unary with an end mark; 13 cannot be
    pickled. *)
Definition toy_dump (v : nat) : bytes * option ioexn :=
  if v =? 13 then ([1], Some (Unpicklable 0)) else (repeat 1 v ++ [0], None).
Fixpoint toy_load (b : bytes) : iores nat :=
  match b with
  | [] => Err EOFErr
  | 0 :: _ => Done 0
  | _ :: t => match toy_load t with Done v => Done (S v) | Err e => Err e end
  end.
Lemma toy_load_dump v : toy_load (repeat 1 v ++ [0]) = Done v.
Proof. induction v as [|v IH]; cbn; [reflexivity|]. rewrite IH. reflexivity. Qed.
Lemma toy_load_ones k : toy_load (repeat 1 k) = Err EOFErr.
Proof. induction k as [|k IH]; cbn; [reflexivity|]. rewrite IH. reflexivity. Qed.
Lemma firstn_repeat_le {A} (x : A) k n : k <= n -> firstn k (repeat x n) = repeat x k.
Proof. revert n. induction k as [|k IH]; intros [|n] H; cbn; try reflexivity; [lia|]. rewrite IH by lia. reflexivity. Qed.
Program Definition toy : pickler := mkPickler nat toy_dump toy_load _ _ _.
Next Obligation.
  unfold toy_dump in *. destruct (v =? 13); [discriminate|]. apply toy_load_dump.
Qed.
Next Obligation.
  exists EOFErr. split; [|reflexivity]. unfold toy_dump in *. destruct (v =? 13); cbn in *.
  - destruct k as [|[|k]]; reflexivity.
  - destruct H as [H|H]; [|contradiction]. rewrite app_length, repeat_length in H. cbn in H.
    rewrite firstn_app, repeat_length. replace (k - v) with 0 by lia. cbn. rewrite app_nil_r.
    rewrite firstn_repeat_le by lia. apply toy_load_ones.
Qed.
Next Obligation.
  unfold toy_dump in *. destruct (v =? 13); cbn in *; [|discriminate]. injection H as <-. reflexivity.
Qed.

Definition empty_disk : io := mkIO (fun _ => None) (fun _ => false) [] 0.
Definition disk (l : list (path * bytes)) : io :=
  mkIO (fun q => match find (fun e => String.eqb (fst e) q) l with Some e => Some (snd e) | None => None end)
       (fun _ => false) [] 0.

(** C47 is false in general: three saves within one second leave the first
    and the last value; the second is overwritten. *)
Theorem C47_refuted :
  exists (P : pickler) (now : string) (name : string) (v : value P) (s s' : io) (q : path) (b : bytes),
    final (pickle_save P no_faults now v name false) s = s' /\
    files s (pkl name) <> None /\
    files s q = Some b /\ load P b <> Err EOFErr /\ files s' q <> Some b.
Proof.
  exists toy, "t"%string, "x"%string, 5, (disk [("x.pkl"%string, [1;0]); ("x_t.pkl"%string, [1;1;0])]).
  eexists. exists "x_t.pkl"%string, [1;1;0].
  split; [reflexivity|]. cbn. repeat split; discriminate.
Qed.
Print Assumptions C47_refuted.

(** ** C48: crashes *)

(** At every point at which the process can be killed, and at the end, each
    file is what it was, except that the file being written may hold a
    beginning of the pickle of the new value. *)
Theorem C48_crash : forall P f now v name overwrite s s',
  In s' (states (pickle_save P f now v name overwrite) s) ->
  forall q, files s' q = files s q \/
    ((q = pkl name \/ (q = stamped name now /\ overwrite = false /\ files s (pkl name) <> None)) /\
     exists k, files s' q = Some (firstn k (fst (dump P v)))).
Proof.
  intros P f now v name ow s s' Hin q.
  destruct (pickle_save_states P f now v name ow s s' Hin) as [H1 H2].
  destruct (String.eqb_spec q (written name now ow s)) as [->|Hq]; [|left; apply H1, Hq].
  destruct H2 as [H2|H2]; [left; exact H2|]. right. split; [|exact H2].
  unfold written. destruct (files s (pkl name)) eqn:E; cbn; [|left; reflexivity].
  destruct ow; cbn; [left; reflexivity|right]. repeat split. congruence.
Qed.
Print Assumptions C48_crash.

(** If the file cannot be opened nothing changes: an old value is kept. *)
Theorem C48_before_open : forall P f now v name overwrite s e s',
  f_open f = Some e ->
  In s' (states (pickle_save P f now v name overwrite) s) ->
  forall q, files s' q = files s q.
Proof.
  intros P f now v name ow s e s' H Hin q.
  destruct Hin as [<-|Hin]; [reflexivity|]. unfold final in Hin.
  destruct (pickle_save_split P f now v name ow s) as [(er & _ & E)|(pre & s0 & Hf & _ & _ & Hpre & E)].
  - rewrite E in Hin. destruct Hin as [<-|[]]. reflexivity.
  - set (m := mcatch _ _ _) in E.
    assert (Em : fst (m s0) = [] /\ files (snd (snd (m s0))) = files s0).
    { unfold m, mcatch, write_file, mbind, fail. rewrite H. unfold mraise.
      destruct (caught_saving e); split; reflexivity. }
    destruct (m s0) as [t r]. cbn in Em. destruct Em as [-> Em].
    rewrite E in Hin. cbn [fst snd] in Hin. rewrite app_nil_r in Hin. apply in_app_or in Hin.
    destruct Hin as [Hin|[<-|[]]]; [|rewrite Em; apply Hf].
    destruct Hpre as [->| ->]; [destruct Hin|]. destruct Hin as [<-|[]]. apply Hf.
Qed.
Print Assumptions C48_before_open.

(** A file which holds a proper beginning of a pickle, or what was written for
    an object which cannot be pickled, makes every decorated call with this
    name and load fail.  It does not call the function, and it changes nothing,
    so this remains so for ever. *)
Theorem C48_poisoned : forall P name s v k,
  files s (pkl name) = Some (firstn k (fst (dump P v))) ->
  k < List.length (fst (dump P v)) \/ snd (dump P v) <> None ->
  exists e, is_os e = false /\
  forall f now func kw, f_read f = None ->
    k_save_name kw = Some name -> or_default (k_load kw) true = true ->
    decorated P f now func kw s = ([], (Err e, s)).
Proof.
  intros P name s v k Hf Hk.
  destruct (load_truncated P v k Hk) as (e & He & Ho). exists e. split; [exact Ho|].
  intros f now func kw Hr Hn Hl.
  unfold decorated. rewrite Hn. cbn [given]. rewrite Hl.
  unfold mbind at 1, mcatch. unfold mbind at 1.
  rewrite (pickle_load_ok P f name s _ Hr Hf), He. cbn. rewrite Ho. reflexivity.
Qed.
Print Assumptions C48_poisoned.

(** C48 is false: killed while writing, pickle_save leaves such a file. *)
Theorem C48_refuted :
  exists (P : pickler) now name (v : value P) s s',
    In s' (states (pickle_save P no_faults now v name true) s) /\
    (exists b v0, files s (pkl name) = Some b /\ load P b = Done v0) /\
    forall f now' func kw, f_read f = None ->
      k_save_name kw = Some name -> or_default (k_load kw) true = true ->
      decorated P f now' func kw s' = ([], (Err EOFErr, s')).
Proof.
  exists toy, "t"%string, "x"%string, 2, (disk [("x.pkl"%string, [1;0])]).
  eexists. split; [right; left; reflexivity|]. split; [exists [1;0], 1; split; reflexivity|].
  intros f now' func kw Hr Hn Hl.
  unfold decorated. rewrite Hn. cbn [given]. rewrite Hl.
  unfold pickle_load, fail. rewrite Hr. reflexivity.
Qed.
Print Assumptions C48_refuted.

(** A result which cannot be pickled: the first call fails after calling the
    function, and every later one fails without calling it, even if the
    function would now return something else. *)
Theorem C48_unpicklable : forall P f now func name s v e,
  f_makedirs f = None -> f_open f = None -> f_write f = None -> f_read f = None ->
  files s (pkl name) = None -> func (calls s) = Done v ->
  snd (dump P v) = Some e -> e <> MemoryErr ->
  let first := decorated P f now func (default_kwargs (Some name)) in
  result first s = Err e /\ calls (final first s) = S (calls s) /\
  exists e', is_os e' = false /\
  forall f' now' func' kw, f_read f' = None ->
    k_save_name kw = Some name -> or_default (k_load kw) true = true ->
    decorated P f' now' func' kw (final first s) = ([], (Err e', final first s)).
Proof.
  intros P f now func name s v e H1 H2 H3 H4 Hf Hv Hd He first.
  destruct (decorated_computes P f now func (default_kwargs (Some name)) name s eq_refl eq_refl H4 Hf) as [Hres Hfin].
  cbn [k_load k_warn k_overwrite default_kwargs or_default andb] in Hres, Hfin. rewrite Hv in Hres, Hfin.
  cbv zeta in Hfin. fold first in Hres, Hfin.
  set (s0 := mkIO (files s) (dirs s) (io_warn s) (S (calls s))) in *.
  destruct (pickle_save_ends P f now v name true s0) as [(er & E & _)|[E|(er & E & E')]].
  - congruence.
  - destruct E as (_ & _ & _ & _ & _ & _ & E & _). congruence.
  - assert (er = e \/ f_close f = Some er) as Her.
    { destruct E as [E|[[k E]|[E|E]]]; try congruence; [left; congruence|right; exact E]. }
    assert (Hos := dump_error P v e Hd).
    assert (Hsave : result (pickle_save P f now v name true) s0 = Err e /\
                    calls (final (pickle_save P f now v name true) s0) = calls s0 /\
                    files (final (pickle_save P f now v name true) s0) (pkl name) = Some (fst (dump P v))).
    { clear E E' Her Hres Hfin.
      destruct (pickle_save_split P f now v name true s0) as [(x & E & _)|(pre & s1 & E1 & E2 & E3 & _ & E)]; [congruence|].
      replace (written name now true s0) with (pkl name) in E by (unfold written; rewrite andb_false_r; reflexivity).
      assert (Hc : caught_saving e = false).
      { unfold caught_saving. rewrite Hos, orb_false_r. destruct e; try reflexivity. congruence. }
      assert (Em : let m := mcatch (write_file f (pkl name) (fst (dump P v)) (snd (dump P v)))
                     caught_saving (fun e => mwarn (WSave e)) in
                   result m s1 = Err e /\ calls (final m s1) = calls s1 /\
                   files (final m s1) (pkl name) = Some (fst (dump P v))).
      { cbv zeta. rewrite catch_final, catch_result.
        unfold result, final, write_file, fail. rewrite H2, H3, Hd.
        pose proof (write_from_ends (pkl name) (fst (dump P v)) [] (set_file (pkl name) [] s1)) as W.
        unfold result, final in W. unfold mbind, mret, step. 
        destruct (write_from (pkl name) [] (fst (dump P v)) (set_file (pkl name) [] s1)) as [t [[x|x] s2]];
          cbn [fst snd] in W; destruct W as (W1 & W2 & W3 & W4 & W5); [|discriminate].
        unfold mraise. cbn [fst snd]. rewrite Hc. cbn [fst snd]. split; [reflexivity|].
        split; [rewrite W3; reflexivity|]. rewrite W5; [reflexivity|]. cbn. rewrite String.eqb_refl. reflexivity. }
      cbv zeta in Em. unfold result, final in *.
      destruct (mcatch _ _ _ s1) as [t r]. rewrite E. cbn [fst snd] in *.
      destruct Em as (Em1 & Em2 & Em3). rewrite Em2. repeat split; assumption. }
    destruct Hsave as (S1 & S2 & S3). rewrite S1 in Hres. rewrite <- Hfin in S2, S3.
    split; [exact Hres|]. split; [exact S2|].
    destruct (C48_poisoned P name (final first s) v (List.length (fst (dump P v)))) as (e' & He' & Hp).
    + rewrite firstn_all. exact S3.
    + right. congruence.
    + exists e'. split; [exact He'|exact Hp].
Qed.
Print Assumptions C48_unpicklable.

(** ** C49: errors of the operating system *)

(** If every error while opening, writing or closing is an OSError or a
    MemoryError, and the directory could be made, pickle_save returns: either
    without a warning, and then the value is stored, or with exactly one
    warning, which names an error which occurred. *)
Theorem C49_no_error : forall P f now v name overwrite s,
  f_makedirs f = None ->
  (forall e, f_open f = Some e -> e = MemoryErr \/ is_os e = true) ->
  (forall k e, f_write f = Some (k, e) -> e = MemoryErr \/ is_os e = true) ->
  (forall e, f_close f = Some e -> e = MemoryErr \/ is_os e = true) ->
  snd (dump P v) = None ->
  let m := pickle_save P f now v name overwrite in
  result m s = Done tt /\ calls (final m s) = calls s /\
  ((io_warn (final m s) = io_warn s /\
    exists p, (p = pkl name \/ p = stamped name now) /\ files (final m s) p = Some (fst (dump P v))) \/
   exists e, io_warn (final m s) = WSave e :: io_warn s /\
     (f_open f = Some e \/ (exists k, f_write f = Some (k, e)) \/ f_close f = Some e)).
Proof.
  intros P f now v name ow s H1 H2 H3 H4 H5 m.
  destruct (pickle_save_ends P f now v name ow s) as [(er & E & _)|[E|(er & E & E')]]; cbv zeta in *; fold m in E; try fold m in E'.
  - congruence.
  - destruct E as (E1 & E2 & E3 & E4 & _). split; [exact E1|]. split; [exact E3|]. left. split; [exact E2|].
    eexists. split; [|exact E4]. unfold written. destruct (_ && _); auto.
  - assert (C : caught_saving er = true).
    { assert (er = MemoryErr \/ is_os er = true) as [->|C].
      { destruct E as [E|[[k E]|[E|E]]]; [apply H2, E|apply (H3 k), E|congruence|apply H4, E]. }
      - reflexivity.
      - unfold caught_saving. rewrite C. apply orb_true_r. }
    rewrite C in E'. destruct E' as (E1 & E2 & E3). split; [exact E1|]. split; [exact E3|].
    right. exists er. split; [exact E2|]. destruct E as [E|[E|[E|E]]]; auto; congruence.
Qed.
Print Assumptions C49_no_error.

(** So a decorated function returns its value even if it cannot be saved. *)
Theorem C49_decorated : forall P f now func kw s v name,
  f_makedirs f = None -> f_read f = None ->
  (forall e, f_open f = Some e -> e = MemoryErr \/ is_os e = true) ->
  (forall k e, f_write f = Some (k, e) -> e = MemoryErr \/ is_os e = true) ->
  (forall e, f_close f = Some e -> e = MemoryErr \/ is_os e = true) ->
  k_save_name kw = Some name -> or_default (k_save kw) true = true ->
  files s (pkl name) = None ->
  func (calls s) = Done v -> snd (dump P v) = None ->
  result (decorated P f now func kw) s = Done v.
Proof.
  intros P f now func kw s v name H1 Hr H2 H3 H4 Hn Hs Hf Hv Hd.
  destruct (decorated_computes P f now func kw name s Hn Hs Hr Hf) as [-> _].
  rewrite Hv.
  destruct (C49_no_error P f now v name (k_overwrite kw)
    (mkIO (files s) (dirs s) (if or_default (k_load kw) true && k_warn kw then WLoad :: io_warn s else io_warn s) (S (calls s)))
    H1 H2 H3 H4 Hd) as [-> _].
  reflexivity.
Qed.
Print Assumptions C49_decorated.

(** Not caught are errors in making the directory, and any others. *)
Theorem C49_makedirs : forall P f now v name overwrite s e,
  f_makedirs f = Some e ->
  dirs s (dirname (pkl name)) = false -> files s (dirname (pkl name)) = None ->
  dirname (pkl name) <> ""%string ->
  pickle_save P f now v name overwrite s = ([], (Err e, s)).
Proof.
  intros P f now v name ow s e H1 H2 H3 H4.
  unfold pickle_save. unfold mbind at 1, mget. cbv beta iota zeta. rewrite H2, H3. cbn [orb negb].
  destruct (String.eqb_spec (dirname (pkl name)) "") as [X|_]; [contradiction|]. cbn [negb andb].
  unfold fail. rewrite H1. reflexivity.
Qed.
Print Assumptions C49_makedirs.
Theorem C49_other_errors : forall P f now v name overwrite s e,
  result (pickle_save P f now v name overwrite) s = Err e ->
  f_makedirs f = Some e \/
  (e <> MemoryErr /\ is_os e = false /\
   (f_open f = Some e \/ (exists k, f_write f = Some (k, e)) \/ snd (dump P v) = Some e \/ f_close f = Some e)).
Proof.
  intros P f now v name ow s e H.
  destruct (pickle_save_ends P f now v name ow s) as [(er & E & E')|[E|(er & E & E')]].
  - left. unfold result in H. rewrite E' in H. cbn in H. congruence.
  - destruct E as [E _]. congruence.
  - right. destruct (caught_saving er) eqn:C; destruct E' as [E' _]; [congruence|].
    assert (er = e) by congruence. subst er. unfold caught_saving in C. apply orb_false_iff in C.
    destruct C as [C1 C2]. split; [intros ->; discriminate|]. split; [exact C2|]. exact E.
Qed.
Print Assumptions C49_other_errors.

(** ** Cases *)
(** Saving 5 as dir/x on an empty disk and loading it. *)
Example C46_example :
  let s' := final (pickle_save toy no_faults "t"%string 5 "dir/x"%string true) empty_disk in
  files s' "dir/x.pkl"%string = Some [1;1;1;1;1;0] /\ dirs s' "dir"%string = true /\
  result (pickle_load toy no_faults "dir/x"%string) s' = Done 5 /\ io_warn s' = [].
Proof. vm_compute. repeat split. Qed.
Example dirname_examples :
  dirname "x.pkl"%string = ""%string /\ dirname "a/b/x.pkl"%string = "a/b"%string /\
  dirname "/x.pkl"%string = "/"%string /\ dirname "a//x.pkl"%string = "a"%string.
Proof. vm_compute. repeat split. Qed.
(** A function which returns another number at each call is called once. *)
Example C46_once_example :
  let f n := Done (n + 3) in
  let m := decorated toy no_faults "t"%string f (default_kwargs (Some "x"%string)) in
  let s1 := final m empty_disk in
  result m empty_disk = Done 3 /\ calls s1 = 1 /\
  let s2 := final (pickle_save toy no_faults "t"%string 9 "y"%string true) s1 in
  result m s2 = Done 3 /\ calls (final m s2) = 1 /\
  result (decorated toy no_faults "t"%string f (default_kwargs None)) s2 = Done 4.
Proof. vm_compute. repeat split. Qed.
Example C46_once_history :
  exists s2, @history toy (pkl "x"%string) empty_disk s2 /\ files s2 (pkl "y"%string) <> None.
Proof.
  exists (final (pickle_save toy no_faults "t"%string 9 "y"%string true) empty_disk). split; [|vm_compute; discriminate].
  eapply (history_more _ _ _ _ (@ESave toy no_faults "t"%string 9 "y"%string true)); [split; discriminate| |apply history_none].
  right. apply in_or_app. right. left. reflexivity.
Qed.
Example C47_example :
  let s' := final (pickle_save toy no_faults "t"%string 2 "x"%string false) (disk [("x.pkl"%string, [1;0])]) in
  files s' "x.pkl"%string = Some [1;0] /\ files s' "x_t.pkl"%string = Some [1;1;0].
Proof. vm_compute. repeat split. Qed.
(** Four places to be killed at: the file is empty, has one byte, two, and is complete. *)
Example C48_example :
  map (fun s => files s "x.pkl"%string) (states (pickle_save toy no_faults "t"%string 2 "x"%string true) empty_disk) =
  [None; Some []; Some [1]; Some [1;1]; Some [1;1;0]; Some [1;1;0]].
Proof. vm_compute. reflexivity. Qed.
Example C48_unpicklable_example :
  let f n := Done (n + 13) in
  let m := decorated toy no_faults "t"%string f (default_kwargs (Some "x"%string)) in
  let s1 := final m empty_disk in
  result m empty_disk = Err (Unpicklable 0) /\ calls s1 = 1 /\
  result m s1 = Err EOFErr /\ calls (final m s1) = 1.
Proof. vm_compute. repeat split. Qed.
(** A full disk (errno 28) after two bytes, or a directory in the way (errno
    21): only a warning. *)
Example C49_example :
  let s1 := final (pickle_save toy (mkFaults None None (Some (2, OSErr 28)) None None) "t"%string 5 "x"%string true) empty_disk in
  io_warn s1 = [WSave (OSErr 28)] /\ files s1 "x.pkl"%string = Some [1;1] /\
  let s2 := final (pickle_save toy (mkFaults None (Some (OSErr 21)) None None None) "t"%string 5 "x"%string true) empty_disk in
  io_warn s2 = [WSave (OSErr 21)] /\ files s2 "x.pkl"%string = None.
Proof. vm_compute. repeat split. Qed.
