(** C46: the directory made by pickle_save. *)
From Coq Require Import List String Ascii Bool Arith Lia.
From Verif Require Import ModelIO ProofIO PropIO.
Import ListNotations.

Definition slash : ascii := "/"%char.
Definition text := string_of_list_ascii.

Lemma list_text l : list_ascii_of_string (text l) = l.
Proof. apply list_ascii_of_string_of_list_ascii. Qed.
Lemma text_app a b : (text a ++ text b)%string = text (a ++ b).
Proof. induction a as [|c a IH]; [reflexivity|]. cbn [app]. change (String c (text a ++ text b) = String c (text (a ++ b))). congruence. Qed.

Lemma drop_while_app {A} (p : A -> bool) a b :
  Forall (fun c => p c = true) a -> drop_while p (a ++ b) = drop_while p b.
Proof. induction 1 as [|c a Hc _ IH]; cbn; [reflexivity|]. rewrite Hc. exact IH. Qed.
Lemma drop_while_stop {A} (p : A -> bool) c l : p c = false -> drop_while p (c :: l) = c :: l.
Proof. intros H. cbn. rewrite H. reflexivity. Qed.
Lemma drop_while_all {A} (p : A -> bool) a : Forall (fun c => p c = true) a -> drop_while p a = [].
Proof. induction 1 as [|c a Hc _ IH]; cbn; [reflexivity|]. rewrite Hc. exact IH. Qed.
Lemma is_slash_iff c : is_slash c = true <-> c = slash.
Proof. apply Ascii.eqb_eq. Qed.
Lemma rev_repeat {A} (x : A) n : rev (repeat x n) = repeat x n.
Proof.
  induction n as [|n IH]; [reflexivity|]. cbn. rewrite IH. clear IH. induction n; cbn; [reflexivity|congruence].
Qed.
Lemma slashes_are n : Forall (fun c => is_slash c = true) (repeat slash n).
Proof. induction n; constructor; auto. Qed.
Lemma no_slash_rev base : ~ In slash base -> Forall (fun c => negb (is_slash c) = true) (rev base).
Proof.
  intros H. apply Forall_forall. intros c Hc. apply in_rev in Hc. apply negb_true_iff.
  apply not_true_iff_false. rewrite is_slash_iff. intros ->. auto.
Qed.

(** No directory in the name; a name in a root directory (any number of
    slashes); a name in a directory [d c], where [c] is not a slash. *)
Lemma dirname_spec d c k base : ~ In slash base -> c <> slash ->
  dirname (text base) = text [] /\
  dirname (text (repeat slash (S k) ++ base)) = text (repeat slash (S k)) /\
  dirname (text ((d ++ [c]) ++ repeat slash (S k) ++ base)) = text (d ++ [c]).
Proof.
  intros Hb Hc. unfold dirname. fold text. rewrite !list_text.
  pose proof (no_slash_rev base Hb) as Hr. split; [|split].
  - rewrite (drop_while_all _ _ Hr). reflexivity.
  - rewrite rev_app_distr, drop_while_app by exact Hr. rewrite rev_repeat.
    change (repeat slash (S k)) with (slash :: repeat slash k) at 1.
    change (repeat slash (S k)) with (slash :: repeat slash k) at 1.
    rewrite drop_while_stop by reflexivity.
    change (slash :: repeat slash k) with (repeat slash (S k)).
    assert (Hs : forallb is_slash (repeat slash (S k)) = true).
    { apply forallb_forall. intros x Hx. apply repeat_spec in Hx. subst. reflexivity. }
    rewrite Hs, rev_repeat. reflexivity.
  - rewrite !rev_app_distr. cbn [rev app]. rewrite <- app_assoc, drop_while_app by exact Hr. rewrite rev_repeat.
    change (repeat slash (S k)) with (slash :: repeat slash k). cbn [app].
    rewrite drop_while_stop by reflexivity.
    assert (Hf : forallb is_slash (slash :: repeat slash k ++ c :: rev d) = false).
    { apply not_true_iff_false. rewrite forallb_forall. intros H. apply Hc, is_slash_iff, H.
      right. apply in_or_app. right. left. reflexivity. }
    rewrite Hf. change (slash :: repeat slash k ++ c :: rev d) with (repeat slash (S k) ++ c :: rev d).
    rewrite drop_while_app by apply slashes_are. rewrite drop_while_stop.
    + cbn [rev]. rewrite rev_involutive. reflexivity.
    + apply not_true_iff_false. rewrite is_slash_iff. exact Hc.
Qed.

Definition same_dirs (s s' : io) : Prop := dirs s' = dirs s.
Lemma same_dirs_refl s : same_dirs s s. Proof. reflexivity. Qed.
Lemma same_dirs_trans s1 s2 s3 : same_dirs s1 s2 -> same_dirs s2 s3 -> same_dirs s1 s3.
Proof. unfold same_dirs. congruence. Qed.
Lemma write_dirs f p b e : keeps same_dirs (write_file f p b e).
Proof.
  assert (Hr := same_dirs_refl). assert (Ht := same_dirs_trans).
  assert (Hw : forall todo done, keeps same_dirs (write_from p done todo)).
  { induction todo as [|x todo IH]; intros done; cbn; [apply keeps_ret; auto|].
    apply keeps_bind; auto. apply keeps_step; auto. }
  unfold write_file. apply keeps_bind; auto; [apply keeps_fail; auto|intros _].
  apply keeps_bind; auto; [apply keeps_step; auto; reflexivity|intros _].
  apply keeps_bind; auto.
  { destruct (f_write f) as [[k err]|]; [|apply Hw].
    apply keeps_bind; auto. intros _; apply keeps_raise; auto. }
  intros _. apply keeps_bind; auto; [|intros _]; apply keeps_fail; auto.
Qed.

Lemma save_dirs P f now v name ow s :
  f_makedirs f = None ->
  let d := dirname (pkl name) in
  dirs (final (pickle_save P f now v name ow) s) =
  if negb (dirs s d || match files s d with Some _ => true | None => false end) && negb (String.eqb d "")
  then fun q => String.eqb q d || dirs s q else dirs s.
Proof.
  intros Hm d. unfold pickle_save. fold d. rewrite Hm.
  unfold final. unfold mbind at 1, mget. cbv beta iota zeta.
  match goal with |- context [mcatch ?a ?b ?h] => set (c := mcatch a b h) end.
  assert (Hc : keeps same_dirs c).
  { unfold c. apply keeps_catch; [apply same_dirs_refl|apply same_dirs_trans|apply write_dirs|].
    intros e. apply keeps_silent; [apply same_dirs_refl|]. intros s0. split; reflexivity. }
  assert (Hfin : forall s0, dirs (snd (snd (c s0))) = dirs s0).
  { intros s0. apply (Hc s0). right. apply in_or_app. right. left. reflexivity. }
  match goal with |- _ = if ?b then _ else _ => destruct b end.
  - cbn [fail]. unfold mbind, mret, step. cbn [fst snd app].
    match goal with |- context [c ?s0] => specialize (Hfin s0); destruct (c s0) as [t [r s1]] end.
    cbn [fst snd] in *. exact Hfin.
  - unfold mbind, mret. cbn [fst snd app]. specialize (Hfin s). destruct (c s) as [t [r s1]]. exact Hfin.
Qed.

(** Which directory pickle_save makes: the one in front of the last slashes of the
    name.  None if the name has no slash, or if there is something with that name. *)
Theorem C46_directory : forall P f now v overwrite s d c k base,
  f_makedirs f = None -> ~ In slash base -> c <> slash ->
  let after name := dirs (final (pickle_save P f now v (text name) overwrite) s) in
  let root := text (repeat slash (S k)) in
  let dir := text (d ++ [c]) in
  after base = dirs s /\
  (files s root = None -> after (repeat slash (S k) ++ base) root = true) /\
  (files s dir = None -> after ((d ++ [c]) ++ repeat slash (S k) ++ base) dir = true) /\
  (dirs s dir = true \/ files s dir <> None -> after ((d ++ [c]) ++ repeat slash (S k) ++ base) = dirs s) /\
  (forall name q, dirs s q = true -> after name q = true).
Proof.
  intros P f now v ow s d c k base Hm Hb Hc after.
  assert (Hb' : ~ In slash (base ++ list_ascii_of_string extension)).
  { intros H. apply in_app_or in H as [H|H]; [auto|]. cbn in H. intuition discriminate. }
  assert (Hp : forall l, pkl (text l) = text (l ++ list_ascii_of_string extension)).
  { intros l. unfold pkl. rewrite <- text_app. reflexivity. }
  destruct (dirname_spec d c k _ Hb' Hc) as (D1 & D2 & D3). unfold after. clear after.
  assert (Hq : forall name dn, dirname (pkl (text name)) = dn -> dn <> ""%string -> forall q,
    dirs (final (pickle_save P f now v (text name) ow) s) q = true <->
    dirs s q = true \/ q = dn /\ files s q = None).
  { intros name dn Hd Hn q. rewrite save_dirs by exact Hm. rewrite Hd.
    destruct (String.eqb_spec dn "") as [E|_]; [contradiction|]. cbn [negb]. rewrite andb_true_r.
    destruct (dirs s dn) eqn:Ed; cbn [orb negb].
    - split; [auto|]. intros [H|[-> _]]; auto.
    - destruct (files s dn) eqn:Ef; cbn [negb].
      + split; [auto|]. intros [H|[-> H]]; [auto|congruence].
      + rewrite orb_true_iff, String.eqb_eq. split; [intros [->|H]|intros [H|[-> _]]]; auto. }
  split; [|split; [|split; [|split]]].
  - rewrite save_dirs by exact Hm. rewrite Hp, D1. cbn [text string_of_list_ascii]. rewrite String.eqb_refl.
    cbn [negb]. rewrite andb_false_r. reflexivity.
  - intros H. apply (Hq _ (text (repeat slash (S k)))); auto; [rewrite Hp, <- app_assoc; exact D2|discriminate].
  - intros H. apply (Hq _ (text (d ++ [c]))); auto; [rewrite Hp, <- !app_assoc in *; exact D3|]. destruct d; discriminate.
  - intros H. rewrite save_dirs by exact Hm. rewrite Hp, <- !app_assoc in *. cbn [app] in *. rewrite D3.
    destruct (dirs s _); [reflexivity|]. destruct (files s _); [reflexivity|]. destruct H; congruence.
  - intros name q H. rewrite save_dirs by exact Hm. destruct (_ && _); auto. rewrite H. apply orb_true_r.
Qed.
Print Assumptions C46_directory.
Example C46_directory_example :
  let s' := final (pickle_save toy no_faults "t"%string 5 "/data//cache//x"%string true) empty_disk in
  dirs s' "/data//cache"%string = true.
Proof. vm_compute. repeat split. Qed.
