(** Lemmas about the input/output monad. *)
From Coq Require Import List String Ascii Bool Arith Lia.
Import ListNotations.
From Verif Require Import ModelIO.

Definition final {A} (m : M A) (s : io) : io := snd (snd (m s)).
Definition result {A} (m : M A) (s : io) : iores A := fst (snd (m s)).
(** The states in which the file system can be left: those passed through, at
    which the process may be killed, and the last one. *)
Definition states {A} (m : M A) (s : io) : list io := s :: fst (m s) ++ [final m s].

(** Every state reached is related by R to the first one. *)
Definition keeps (R : io -> io -> Prop) {A} (m : M A) : Prop :=
  forall s s', In s' (states m s) -> R s s'.

Section Keeps.
Variable R : io -> io -> Prop.
Hypothesis Rrefl : forall s, R s s.
Hypothesis Rtrans : forall s1 s2 s3, R s1 s2 -> R s2 s3 -> R s1 s3.

Lemma keeps_silent A (m : M A) : (forall s, fst (m s) = [] /\ R s (final m s)) -> keeps R m.
Proof.
  intros H s s' [<-|Hin]; [apply Rrefl|].
  destruct (H s) as [H1 H2]. rewrite H1 in Hin. destruct Hin as [<-|[]]. exact H2.
Qed.
Lemma keeps_ret A (x : A) : keeps R (mret x).
Proof. apply keeps_silent. intros s. split; [reflexivity|apply Rrefl]. Qed.
Lemma keeps_raise A e : keeps R (@mraise A e).
Proof. apply keeps_silent. intros s. split; [reflexivity|apply Rrefl]. Qed.
Lemma keeps_fail f : keeps R (fail f).
Proof. destruct f; [apply keeps_raise|apply keeps_ret]. Qed.
Lemma keeps_get : keeps R mget.
Proof. apply keeps_silent. intros s. split; [reflexivity|apply Rrefl]. Qed.
Lemma keeps_step f : (forall s, R s (f s)) -> keeps R (step f).
Proof.
  intros H s s' [<-|[<-|[<-|[]]]]; [apply Rrefl|apply H|apply H].
Qed.
Lemma keeps_bind A B (m : M A) (k : A -> M B) :
  keeps R m -> (forall x, keeps R (k x)) -> keeps R (mbind m k).
Proof.
  intros Hm Hk s s' [<-|Hin]; [apply Rrefl|].
  unfold final, mbind in Hin.
  specialize (Hm s). unfold states, final in Hm.
  destruct (m s) as [t [[x|e] s1]] eqn:E; cbn in *.
  - specialize (Hk x s1). unfold states, final in Hk.
    destruct (k x s1) as [t' r] eqn:E'. cbn in *.
    assert (H1 : R s s1) by (apply Hm; right; apply in_or_app; right; left; reflexivity).
    rewrite <- app_assoc in Hin. apply in_app_or in Hin. destruct Hin as [Hin|Hin].
    + apply Hm. right. apply in_or_app. left. exact Hin.
    + apply (Rtrans _ s1); [exact H1|]. apply Hk. right. exact Hin.
  - apply Hm. right. exact Hin.
Qed.
Lemma keeps_catch A (m : M A) p h :
  keeps R m -> (forall e, keeps R (h e)) -> keeps R (mcatch m p h).
Proof.
  intros Hm Hk s s' [<-|Hin]; [apply Rrefl|].
  unfold final, mcatch in Hin.
  specialize (Hm s). unfold states, final in Hm.
  destruct (m s) as [t [[x|e] s1]] eqn:E; cbn in *; [apply Hm; right; exact Hin|].
  destruct (p e); cbn in Hin; [|apply Hm; right; exact Hin].
  specialize (Hk e s1). unfold states, final in Hk.
  destruct (h e s1) as [t' r] eqn:E'. cbn in *.
  assert (H1 : R s s1) by (apply Hm; right; apply in_or_app; right; left; reflexivity).
  rewrite <- app_assoc in Hin. apply in_app_or in Hin. destruct Hin as [Hin|Hin].
  + apply Hm. right. apply in_or_app. left. exact Hin.
  + apply (Rtrans _ s1); [exact H1|]. apply Hk. right. exact Hin.
Qed.
End Keeps.

(** ** Writing *)
(** Only the file p changes. *)
Definition others (p : path) (s s' : io) : Prop := forall q, q <> p -> files s' q = files s q.
Lemma others_refl p s : others p s s. Proof. intros q _. reflexivity. Qed.
Lemma others_trans p s1 s2 s3 : others p s1 s2 -> others p s2 s3 -> others p s1 s3.
Proof. intros H H' q Hq. rewrite H' by exact Hq. apply H, Hq. Qed.
Lemma others_set p b s : others p s (set_file p b s).
Proof.
  intros q Hq. cbn. destruct (String.eqb_spec q p) as [->|_]; [contradiction|reflexivity].
Qed.
#[export] Hint Resolve others_refl others_trans others_set : io.

Lemma write_from_ends p todo : forall done s,
  result (write_from p done todo) s = Done tt /\
  io_warn (final (write_from p done todo) s) = io_warn s /\
  calls (final (write_from p done todo) s) = calls s /\
  others p s (final (write_from p done todo) s) /\
  (files s p = Some done -> files (final (write_from p done todo) s) p = Some (done ++ todo)).
Proof.
  induction todo as [|x t IH]; intros done s; unfold result, final.
  - cbn. rewrite app_nil_r. repeat split. tauto.
  - cbn [write_from]. unfold mbind, step.
    specialize (IH (done ++ [x]) (set_file p (done ++ [x]) s)). unfold result, final in IH.
    destruct (write_from p (done ++ [x]) t _) as [tr r]. cbn [fst snd] in *.
    destruct IH as (H1 & H2 & H3 & H4 & H5).
    split; [exact H1|]. split; [rewrite H2; reflexivity|]. split; [rewrite H3; reflexivity|].
    split; [apply (others_trans p s _ _ (others_set p (done ++ [x]) s) H4)|].
    intros _. rewrite H5; [|cbn; rewrite String.eqb_refl; reflexivity].
    rewrite <- app_assoc. reflexivity.
Qed.

(** The contents which the file goes through. *)
Lemma write_from_states p todo : forall done s,
  files s p = Some done ->
  forall s', In s' (states (write_from p done todo) s) ->
  exists k, files s' p = Some (done ++ firstn k todo).
Proof.
  induction todo as [|x t IH]; intros done s Hs s' [<-|Hin].
  - exists 0. cbn. rewrite app_nil_r. exact Hs.
  - destruct Hin as [<-|[]]. exists 0. cbn. rewrite app_nil_r. exact Hs.
  - exists 0. cbn. rewrite app_nil_r. exact Hs.
  - cbn [write_from] in Hin. unfold final, mbind, step in Hin.
    assert (Hs1 : files (set_file p (done ++ [x]) s) p = Some (done ++ [x]))
      by (cbn; rewrite String.eqb_refl; reflexivity).
    specialize (IH (done ++ [x]) (set_file p (done ++ [x]) s) Hs1 s').
    unfold states, final in IH.
    destruct (write_from p (done ++ [x]) t _) as [tr r]. cbn [fst snd] in *.
    rewrite <- app_assoc in Hin.
    destruct Hin as [<-|Hin].
    + exists 1. rewrite Hs1. reflexivity.
    + destruct IH as [k Hk]; [right; exact Hin|].
      exists (S k). rewrite Hk. cbn. rewrite <- app_assoc. reflexivity.
Qed.

Lemma keeps_write_from p todo : forall done, keeps (others p) (write_from p done todo).
Proof.
  induction todo as [|x t IH]; intros done; cbn [write_from].
  - apply keeps_ret, others_refl.
  - apply keeps_bind; [apply others_refl|apply others_trans|
      apply keeps_step; [apply others_refl|intros; apply others_set]|intros _; apply IH].
Qed.

Lemma keeps_write_file f p b e : keeps (others p) (write_file f p b e).
Proof.
  unfold write_file.
  assert (Hr := others_refl p). assert (Ht := others_trans p).
  apply keeps_bind; auto; [apply keeps_fail; auto|intros _].
  apply keeps_bind; auto; [apply keeps_step; auto; intros; apply others_set|intros _].
  apply keeps_bind; auto.
  { destruct (f_write f) as [[k err]|]; [|apply keeps_write_from].
    apply keeps_bind; auto; [apply keeps_write_from|intros _; apply keeps_raise; auto]. }
  intros _. apply keeps_bind; auto; [|intros _]; apply keeps_fail; auto.
Qed.

(** The contents of the written file at every point: what it was, or a
    beginning of what is to be written. *)
Definition begun (p : path) (b : bytes) (s s' : io) : Prop :=
  files s' p = files s p \/ exists k, files s' p = Some (firstn k b).
Lemma begun_refl p b s : begun p b s s. Proof. left. reflexivity. Qed.
Lemma begun_trans p b s1 s2 s3 : begun p b s1 s2 -> begun p b s2 s3 -> begun p b s1 s3.
Proof.
  intros H [H'|[k H']]; [|right; exists k; exact H'].
  destruct H as [H|[k H]]; [left; congruence|right; exists k; congruence].
Qed.
Lemma firstn_firstn_min {A} k j (l : list A) : firstn k (firstn j l) = firstn (min k j) l.
Proof. apply firstn_firstn. Qed.

Lemma keeps_begun_write f p b e : keeps (begun p b) (write_file f p b e).
Proof.
  unfold write_file.
  assert (Hr := begun_refl p b). assert (Ht := begun_trans p b).
  apply keeps_bind; auto; [apply keeps_fail; auto|intros _].
  (* opening and writing together *)
  intros s s' [<-|Hin]; [apply Hr|].
  assert (Hs0 : files (set_file p [] s) p = Some []) by (cbn; rewrite String.eqb_refl; reflexivity).
  set (rest := do _ <- match f_write f with
          | Some (k, err) => do _ <- write_from p [] (firstn k b); mraise err
          | None => write_from p [] b
          end; do _ <- fail e; fail (f_close f)) in *.
  assert (Hrest : forall s', In s' (states rest (set_file p [] s)) -> begun p b s s').
  { assert (K : keeps (begun p b) (do _ <- fail e; fail (f_close f))).
    { apply keeps_bind; auto; [|intros _]; apply keeps_fail; auto. }
    assert (L : forall l, (exists j, l = firstn j b) ->
       forall s', In s' (states (write_from p [] l) (set_file p [] s)) -> begun p b s s').
    { intros l [j ->] s2 H2. destruct (write_from_states p _ [] _ Hs0 s2 H2) as [k Hk].
      right. exists (min k j). rewrite Hk. cbn [app]. rewrite firstn_firstn. reflexivity. }
    intros s2 H2. unfold rest in H2. destruct (f_write f) as [[k err]|].
    - destruct H2 as [<-|H2]; [apply (L (firstn k b)); [exists k; reflexivity|left; reflexivity]|].
      unfold final, mbind in H2.
      specialize (L (firstn k b) (ex_intro _ k eq_refl)). unfold states, final in L.
      destruct (write_from p [] (firstn k b) _) as [t [[x|er] s1]]; cbn in H2, L;
        rewrite ?app_nil_r in H2; apply L; right; exact H2.
    - destruct H2 as [<-|H2]; [apply (L b); [exists (List.length b); rewrite firstn_all; reflexivity|left; reflexivity]|].
      unfold final, mbind at 1 3 in H2.
      specialize (L b (ex_intro _ (List.length b) (eq_sym (firstn_all b)))). unfold states, final in L.
      destruct (write_from p [] b _) as [t [[x|er] s1]]; cbn [fst snd] in H2, L;
        [|apply L; right; exact H2].
      specialize (K s1). unfold states, final in K.
      destruct ((do _ <- fail e; fail (f_close f)) s1) as [t' r]. cbn [fst snd] in H2, K.
      rewrite <- app_assoc in H2. apply in_app_or in H2. destruct H2 as [H2|H2].
      + apply L. right. apply in_or_app. left. exact H2.
      + apply (Ht _ s1); [apply L; right; apply in_or_app; right; left; reflexivity|].
        apply K. right. exact H2. }
  unfold final, mbind, step in Hin. cbn [fst snd] in Hin.
  unfold states, final in Hrest.
  destruct (rest (set_file p [] s)) as [t r]. cbn [fst snd] in *.
  apply Hrest. exact Hin.
Qed.

(** ** How writing ends *)
Definition fault_of (f : faults) (e : option ioexn) (er : ioexn) : Prop :=
  f_open f = Some er \/ (exists k, f_write f = Some (k, er)) \/ e = Some er \/ f_close f = Some er.

Lemma write_file_ends f p b e s :
  io_warn (final (write_file f p b e) s) = io_warn s /\
  calls (final (write_file f p b e) s) = calls s /\
  match result (write_file f p b e) s with
  | Done _ => files (final (write_file f p b e) s) p = Some b /\
              f_open f = None /\ f_write f = None /\ e = None /\ f_close f = None
  | Err er => fault_of f e er
  end.
Proof.
  unfold write_file, result, final, fault_of.
  destruct f as [fm fo fw fc fr]. cbn [f_open f_write f_close].
  destruct fo as [er|]; [cbn; auto|].
  set (w := match fw with
            | Some (k, err) => do _ <- write_from p [] (firstn k b); mraise err
            | None => write_from p [] b end).
  assert (Hw : let s0 := set_file p [] s in
    io_warn (final w s0) = io_warn s /\ calls (final w s0) = calls s /\
    match result w s0 with Done _ => files (final w s0) p = Some b /\ fw = None
    | Err er => exists k, fw = Some (k, er) end).
  { unfold w. destruct fw as [[k er]|]; unfold result, final.
    - pose proof (write_from_ends p (firstn k b) [] (set_file p [] s)) as H.
      unfold mbind. unfold result, final in H.
      destruct (write_from p [] (firstn k b) _) as [t [[x|err] s1]]; cbn in *;
        destruct H as (H1 & H2 & H3 & H4 & H5); [|discriminate].
      repeat split; auto. exists k. reflexivity.
    - pose proof (write_from_ends p b [] (set_file p [] s)) as H. unfold result, final in H.
      destruct (write_from p [] b _) as [t [[x|err] s1]]; cbn in *;
        destruct H as (H1 & H2 & H3 & H4 & H5); [|discriminate].
      repeat split; auto. rewrite H5; [reflexivity|]. rewrite String.eqb_refl. reflexivity. }
  clearbody w. cbn zeta in Hw. unfold result, final in Hw.
  cbn [fail]. unfold mbind, mret, step. cbn.
  change (mkIO (fun q => if String.eqb q p then Some [] else files s q) (dirs s) (io_warn s) (calls s))
    with (set_file p [] s).
  destruct (w (set_file p [] s)) as [t [[x|er] s1]]; cbn in *; destruct Hw as (H1 & H2 & H3);
    [|repeat split; auto].
  destruct H3 as [H3 ->].
  destruct e as [er|]; cbn; [auto 8|].
  destruct fc as [er|]; cbn; auto 10.
Qed.

(** ** pickle_save *)
(** The file which is written. *)
Definition written (name now : string) (overwrite : bool) (s : io) : path :=
  if given (files s (pkl name)) && negb overwrite then stamped name now else pkl name.

Definition same_files (s s' : io) : Prop := forall q, files s' q = files s q.

(** pickle_save in terms of writing the file, once the directory is there. *)
Lemma pickle_save_split P f now v name ow s :
  (exists e, f_makedirs f = Some e /\
     pickle_save P f now v name ow s = ([], (Err e, s))) \/
  exists pre s0, same_files s s0 /\ io_warn s0 = io_warn s /\ calls s0 = calls s /\
     (pre = [] \/ pre = [s0]) /\
     let '(t, r) := mcatch (write_file f (written name now ow s) (fst (dump P v)) (snd (dump P v)))
                           caught_saving (fun e => mwarn (WSave e)) s0 in
     pickle_save P f now v name ow s = (pre ++ t, r).
Proof.
  set (d := dirname (pkl name)).
  set (missing := negb (dirs s d || match files s d with Some _ => true | None => false end)
              && negb (String.eqb d "")).
  set (mk := (fun s => mkIO (files s) (fun q => String.eqb q d || dirs s q) (io_warn s) (calls s))).
  set (wr := mcatch _ _ _).
  assert (E : pickle_save P f now v name ow s =
    mbind (if missing then do _ <- fail (f_makedirs f); step mk else mret tt) (fun _ => wr) s).
  { unfold pickle_save. unfold mbind at 1, mget. cbv beta iota zeta. fold d. fold missing. fold mk.
    change (mcatch _ _ _) with wr.
    destruct (mbind _ _ s) as [t r]. reflexivity. }
  rewrite E. clear E.
  destruct missing.
  - destruct (f_makedirs f) as [e|].
    + left. exists e. split; reflexivity.
    + right. exists [mk s], (mk s). split; [intros q; reflexivity|]. split; [reflexivity|]. split; [reflexivity|].
      split; [right; reflexivity|].
      unfold mbind, fail, mret, step. destruct (wr (mk s)) as [t r]. reflexivity.
  - right. exists [], s. split; [intros q; reflexivity|]. split; [reflexivity|]. split; [reflexivity|].
    split; [left; reflexivity|].
    unfold mbind, mret. destruct (wr s) as [t r]. reflexivity.
Qed.

Lemma catch_final {A} (m : M A) p h s :
  final (mcatch m p h) s =
  match result m s with Err e => if p e then final (h e) (final m s) else final m s | _ => final m s end.
Proof.
  unfold final, result, mcatch. destruct (m s) as [t [[x|e] s1]]; cbn; [reflexivity|].
  destruct (p e); cbn; [|reflexivity]. destruct (h e s1) as [t' r]. reflexivity.
Qed.
Lemma catch_result {A} (m : M A) p h s :
  result (mcatch m p h) s =
  match result m s with Err e => if p e then result (h e) (final m s) else Err e | x => x end.
Proof.
  unfold final, result, mcatch. destruct (m s) as [t [[x|e] s1]]; cbn; [reflexivity|].
  destruct (p e); cbn; [|reflexivity]. destruct (h e s1) as [t' r]. reflexivity.
Qed.

(** Every state reached by pickle_save. *)
Lemma pickle_save_states P f now v name ow s s' :
  In s' (states (pickle_save P f now v name ow) s) ->
  others (written name now ow s) s s' /\
  begun (written name now ow s) (fst (dump P v)) s s'.
Proof.
  intros [<-|Hin]; [split; [apply others_refl|apply begun_refl]|].
  unfold final in Hin.
  destruct (pickle_save_split P f now v name ow s) as [(e & _ & E)|(pre & s0 & Hf & _ & _ & Hpre & E)].
  - rewrite E in Hin. destruct Hin as [<-|[]]. split; [apply others_refl|apply begun_refl].
  - set (p := written name now ow s) in *. set (b := fst (dump P v)) in *.
    set (m := mcatch _ _ _) in E. 
    assert (H0 : others p s s0) by (intros q _; apply Hf).
    assert (B0 : begun p b s s0) by (left; apply Hf).
    assert (K1 : keeps (others p) m).
    { apply keeps_catch; [apply others_refl|apply others_trans|apply keeps_write_file|].
      intros e. apply keeps_silent; [apply others_refl|]. intros s1. split; [reflexivity|]. intros q _. reflexivity. }
    assert (K2 : keeps (begun p b) m).
    { apply keeps_catch; [apply begun_refl|apply begun_trans|apply keeps_begun_write|].
      intros e. apply keeps_silent; [apply begun_refl|]. intros s1. split; [reflexivity|]. left. reflexivity. }
    specialize (K1 s0 s'). specialize (K2 s0 s'). unfold states, final in K1, K2.
    destruct (m s0) as [t r]. rewrite E in Hin. cbn [fst snd] in *.
    rewrite <- app_assoc in Hin. apply in_app_or in Hin.
    destruct Hin as [Hin|Hin].
    + destruct Hpre as [->| ->]; [destruct Hin|]. destruct Hin as [<-|[]]. split; assumption.
    + split; [apply (others_trans p s s0); [exact H0|apply K1; right; exact Hin]|].
      apply (begun_trans p b s s0); [exact B0|apply K2; right; exact Hin].
Qed.

(** How pickle_save ends. *)
Lemma pickle_save_ends P f now v name ow s :
  (exists e, f_makedirs f = Some e /\ pickle_save P f now v name ow s = ([], (Err e, s))) \/
  (let s' := final (pickle_save P f now v name ow) s in
    result (pickle_save P f now v name ow) s = Done tt /\ io_warn s' = io_warn s /\ calls s' = calls s /\
    files s' (written name now ow s) = Some (fst (dump P v)) /\
    f_open f = None /\ f_write f = None /\ snd (dump P v) = None /\ f_close f = None) \/
   exists er, fault_of f (snd (dump P v)) er /\
     let s' := final (pickle_save P f now v name ow) s in
     if caught_saving er
     then result (pickle_save P f now v name ow) s = Done tt /\ io_warn s' = WSave er :: io_warn s /\ calls s' = calls s
     else result (pickle_save P f now v name ow) s = Err er /\ io_warn s' = io_warn s /\ calls s' = calls s.
Proof.
  destruct (pickle_save_split P f now v name ow s) as [H|(pre & s0 & Hf & Hw & Hc & _ & E)]; [left; exact H|].
  right. set (p := written name now ow s) in *.
  set (m := write_file f p (fst (dump P v)) (snd (dump P v))) in *.
  pose proof (write_file_ends f p (fst (dump P v)) (snd (dump P v)) s0) as (H1 & H2 & H3). fold m in H1, H2, H3.
  pose proof (catch_final m caught_saving (fun e => mwarn (WSave e)) s0) as F.
  pose proof (catch_result m caught_saving (fun e => mwarn (WSave e)) s0) as G.
  unfold final at 1 in F. unfold result at 1 in G.
  destruct (mcatch m caught_saving (fun e => mwarn (WSave e)) s0) as [t r]. cbn [fst snd] in F, G.
  unfold final, result. rewrite E. cbn [fst snd]. rewrite F, G.
  destruct (result m s0) as [[]|er].
  - left. destruct H3 as (H3 & H4). split; [reflexivity|].
    split; [rewrite H1; exact Hw|]. split; [rewrite H2; exact Hc|]. split; [exact H3|exact H4].
  - right. exists er. split; [exact H3|]. destruct (caught_saving er); cbn; rewrite ?H1, ?H2, ?Hw, ?Hc; auto.
Qed.

(** ** Names *)
Lemma append_length (a b : string) : String.length (a ++ b) = (String.length a + String.length b)%nat.
Proof. induction a as [|c a IH]; cbn; [reflexivity|]. rewrite IH. reflexivity. Qed.
Lemma stamped_pkl name now : stamped name now <> pkl name.
Proof.
  intros H. apply (f_equal String.length) in H. unfold stamped, pkl in H.
  rewrite !append_length in H. cbn in H. lia.
Qed.
Lemma append_cancel (c a b : string) : (a ++ c)%string = (b ++ c)%string -> a = b.
Proof.
  revert b. induction a as [|x a IH]; intros [|y b] H; [reflexivity| | |].
  - apply (f_equal String.length) in H. cbn in H. rewrite append_length in H. lia.
  - apply (f_equal String.length) in H. cbn in H. rewrite append_length in H. lia.
  - cbn in H. injection H as -> H. rewrite (IH b H). reflexivity.
Qed.
Lemma pkl_inj a b : pkl a = pkl b -> a = b.
Proof. apply append_cancel. Qed.

(** ** Loading *)
Lemma pickle_load_ok P f name s b :
  f_read f = None -> files s (pkl name) = Some b ->
  pickle_load P f name s = ([], (load P b, s)).
Proof.
  intros Hr Hb. unfold pickle_load. rewrite Hr. cbn. unfold mbind, mret, mget. cbn. rewrite Hb.
  destruct (load P b); reflexivity.
Qed.
