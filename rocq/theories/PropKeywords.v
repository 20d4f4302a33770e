(** C104: keyword arguments. *)
From Coq Require Import String Lra.
From Verif Require Import Base ModelRun ModelData ModelBoot ModelReal ModelStats ModelDummy ModelParallel ModelCalls
     ModelKeywords Envs ProofBase ProofMonad ProofTies.
From Verif Require ModelIO ModelStatsFile ModelWrite PropIO.
Local Open Scope list_scope. Local Open Scope nat_scope. Local Open Scope Z_scope.

(** ** Dictionaries of keywords *)
Definition keys (kw : dict obj) : list string := map fst kw.
Definition only (known : list string) (kw : dict obj) : Prop := forall k, In k (keys kw) -> In k known.
Definition unknown (known : list string) (kw : dict obj) : Prop := exists k, In k (keys kw) /\ ~ In k known.
(** The value of a keyword: the one given, as [conv] sees it, or the default. *)
Definition is_value {A} (conv : obj -> option A) (kw : dict obj) (k : string) (default a : A) : Prop :=
  (exists v, In (k, v) kw /\ conv v = Some a) \/ (~ In k (keys kw) /\ a = default).
Definition as_bool (o : obj) : option bool := Some (truth o).
Definition as_is (o : obj) : option obj := Some o.

Lemma get_key_in : forall k v (kw : dict obj), NoDup (keys kw) -> In (k, v) kw -> get_key k kw = Some v.
Proof.
  intros k v kw. induction kw as [|[k' u] t IH]; intros Hn Hi; [contradiction|]. cbn in *. inversion Hn; subst.
  destruct (String.eqb_spec k k') as [->|Hne].
  - destruct Hi as [E|Hi]; [injection E as ->; auto|]. exfalso. apply H1. apply in_map_iff. exists (k', v). auto.
  - destruct Hi as [E|Hi]; [injection E as -> _; congruence|]. auto.
Qed.
Lemma get_key_none : forall k (kw : dict obj), ~ In k (keys kw) -> get_key k kw = None.
Proof.
  intros k kw. induction kw as [|[k' u] t IH]; intros Hi; auto. cbn in *.
  destruct (String.eqb_spec k k') as [->|Hne]; [exfalso; auto|]. auto.
Qed.
Lemma get_del : forall k k' (kw : dict obj), k <> k' -> get_key k (del_key k' kw) = get_key k kw.
Proof.
  intros k k' kw Hne. induction kw as [|[j u] t IH]; auto. cbn [del_key filter fst get_key].
  destruct (String.eqb_spec k' j) as [->|Hj]; cbn [negb get_key].
  - destruct (String.eqb_spec k j); [congruence|]. exact IH.
  - destruct (String.eqb k j); auto.
Qed.
Lemma has_key_spec : forall k (kw : dict obj), has_key k kw = true <-> In k (keys kw).
Proof.
  intros k kw. unfold has_key, keys. rewrite existsb_exists, in_map_iff. split.
  - intros ([k' v] & Hi & E). apply String.eqb_eq in E. cbn in E. subst. exists (k', v). auto.
  - intros ([k' v] & <- & Hi). exists (k', v). split; auto. apply String.eqb_refl.
Qed.
Lemma has_key_no : forall k (kw : dict obj), ~ In k (keys kw) -> has_key k kw = false.
Proof. intros k kw H. destruct (has_key k kw) eqn:E; auto. apply has_key_spec in E. contradiction. Qed.
Lemma keys_del : forall k j (kw : dict obj), In j (keys (del_key k kw)) <-> In j (keys kw) /\ j <> k.
Proof.
  intros k j kw. unfold keys, del_key. rewrite !in_map_iff. split.
  - intros (p & <- & Hp). apply filter_In in Hp as [Hp E]. split; [eauto|]. intros Ek. rewrite Ek, String.eqb_refl in E. discriminate.
  - intros [(p & <- & Hp) Hne]. exists p. split; auto. apply filter_In. split; auto.
    destruct (String.eqb_spec k (fst p)); [congruence|auto].
Qed.
Lemma no_keys : forall (kw : dict obj), (forall k, ~ In k (keys kw)) -> kw = [].
Proof. intros [|[k v] t] H; auto. exfalso. apply (H k). left. auto. Qed.

Lemma bind_ok : forall E names (kw : dict obj) (w : world E), (forall n, In n names -> ~ In n (keys kw)) ->
    bind names kw w = (Ok tt, w).
Proof.
  intros E names kw w H. unfold bind. destruct (existsb _ names) eqn:Ex; auto. apply existsb_exists in Ex as (n & Hn & Hk).
  apply has_key_spec in Hk. exfalso. eapply H; eauto.
Qed.
Lemma bind_cases : forall E names (kw : dict obj) (w : world E),
    bind names kw w = (Ok tt, w) \/ bind names kw w = (Raise TypeError, w).
Proof. intros. unfold bind. destruct (existsb _ names); auto. Qed.
Lemma no_more_unknown : forall E (kw : dict obj) k (w : world E), In k (keys kw) -> no_more kw w = (Raise TypeError, w).
Proof. intros E [|p t] k w H; [contradiction|reflexivity]. Qed.

(** Values after some keywords have been popped. *)
Lemma flag_of : forall kw k d a, NoDup (keys kw) -> is_value as_bool kw k d a -> flag (get_key k kw) d = a.
Proof.
  intros kw k d a Hn [(v & Hi & E)|[Hno ->]].
  - rewrite (get_key_in k v kw) by auto. injection E as <-. reflexivity.
  - rewrite get_key_none by auto. reflexivity.
Qed.
Lemma value_of : forall kw k d a, NoDup (keys kw) -> is_value as_is kw k d a -> or_else (get_key k kw) d = a.
Proof.
  intros kw k d a Hn [(v & Hi & E)|[Hno ->]].
  - rewrite (get_key_in k v kw) by auto. injection E as <-. reflexivity.
  - rewrite get_key_none by auto. reflexivity.
Qed.

Ltac pops := unfold pop; cbn [fst snd]; repeat (rewrite get_del by discriminate).
(** Nothing is left of known keywords. *)
Ltac nothing_left H :=
  match goal with
  | |- context [no_more ?kw] =>
      replace kw with (@nil (string * obj));
      [|symmetry; apply no_keys; let k := fresh in let Hk := fresh in intros k Hk;
        repeat (rewrite keys_del in Hk); destruct_ands Hk; apply H in Hk; cbn in Hk; intuition congruence]
  end
with destruct_ands H :=
  repeat match type of H with _ /\ _ => let H2 := fresh in destruct H as [H H2] end.
(** Something is left. *)
Ltac left_over k H1 H2 :=
  match goal with
  | |- context [no_more ?kw] =>
      let Hin := fresh in
      assert (Hin : In k (keys kw)) by (repeat (rewrite keys_del); repeat split; auto; intros ->; apply H2; cbn; auto 10);
      unfold wbind at 1; rewrite (no_more_unknown _ _ k) by exact Hin
  end.
Ltac bound :=
  match goal with
  | |- context [wbind (bind ?names ?kw) _ ?w] =>
      let B := fresh in destruct (bind_cases _ names kw w) as [B|B]; unfold wbind at 1; rewrite B; [|reflexivity]
  end.
Ltac unbound H :=
  match goal with
  | |- context [wbind (bind ?names ?kw) _ ?w] =>
      unfold wbind at 1; rewrite (bind_ok _ names kw w)
        by (let n := fresh in let Hn := fresh in let Hi := fresh in intros n Hn Hi;
            repeat (rewrite keys_del in Hi); destruct_ands Hi; apply H in Hi; cbn in Hn, Hi; intuition congruence)
  end.
Notation dups := ["dup_assert"; "dup_warn"]%string (only parsing).

(** What the objects given for keywords are as booleans, integers and floats. *)
Theorem C104_objects : forall o,
    (truth o = false <-> In o [ONone; OBool false; OInt 0; OFloat (Fin 0); OStr ""; OList []]) /\
    (forall z, index o = Some z <-> o = OInt z \/ (o = OBool true /\ z = 1) \/ (o = OBool false /\ z = 0)) /\
    (forall one x, float one o = Some x <->
       o = OFloat x \/ exists z, x = Fin (z * one) /\ (o = OInt z \/ (o = OBool true /\ z = 1) \/ (o = OBool false /\ z = 0))).
Proof.
  intros o. split; [|split].
  - cbn [In]. destruct o as [|b|z|[|z]|s|l|n]; cbn [truth].
    + intuition.
    + destruct b; intuition congruence.
    + destruct (Z.eqb_spec z 0); cbn; intuition congruence.
    + intuition congruence.
    + destruct (Z.eqb_spec z 0); cbn; intuition congruence.
    + destruct (String.eqb_spec s ""); cbn; intuition congruence.
    + destruct l; cbn; intuition congruence.
    + intuition congruence.
  - intros z. destruct o as [|[|]|y|x|s|l|n]; cbn [index]; split; intros H; try discriminate; try (injection H as <-; auto);
      try (destruct H as [H|[[H ?]|[H ?]]]; congruence).
  - intros one x. destruct o as [|[|]|y|y|s|l|n]; cbn [float]; split; intros H; try discriminate;
      try (destruct H as [H|(z & -> & [H|[[H ->]|[H ->]]])]; try discriminate; try congruence; f_equal; f_equal; lia).
    + injection H as <-. right. exists 1. split; [f_equal; lia|auto].
    + injection H as <-. right. exists 0. split; [f_equal; lia|auto].
    + injection H as <-. right. exists y. auto.
    + injection H as <-. auto.
Qed.
Print Assumptions C104_objects.

(** ** Unknown keywords *)
Lemma unknown_check : forall E r kw (w : world E), unknown dups kw -> check_ns_run_kw r kw w = (Raise TypeError, w).
Proof. intros E r kw w (k & H1 & H2). unfold check_ns_run_kw. bound. pops. left_over k H1 H2. reflexivity. Qed.
Lemma unknown_births : forall E b l kw (w : world E), unknown dups kw -> birth_inds_kw b l kw w = (Raise TypeError, w).
Proof. intros E b l kw w (k & H1 & H2). unfold birth_inds_kw. bound. pops. left_over k H1 H2. reflexivity. Qed.
Lemma unknown_samples : forall E l kw (w : world E), unknown dups kw -> process_samples_array_kw l kw w = (Raise TypeError, w).
Proof.
  intros E l kw w H. unfold process_samples_array_kw. bound. cbv zeta. unfold wbind at 1. rewrite unknown_births by auto. auto.
Qed.

(** TypeError before anything is drawn, warned about or written.  An empty list
    of runs, a missing file and the order of MultiNest's points are checked
    before. *)
Theorem C104_unknown : forall E kw (w : world E),
    (unknown dups kw ->
       (forall r, check_ns_run_kw r kw w = (Raise TypeError, w)) /\
       (forall runs, runs <> [] -> combine_ns_runs_kw runs kw w = (Raise TypeError, w)) /\
       (forall b l, birth_inds_kw b l kw w = (Raise TypeError, w)) /\
       (forall samples, process_samples_array_kw samples kw w = (Raise TypeError, w)) /\
       (forall root dead live, dead <> [] -> live <> [] ->
          (forall x y, In x dead -> In y live -> nth (length x - 4) x 0 < nth (length y - 3) y 0) ->
          (forall x, In x dead -> (4 <= length x)%nat) -> (forall x, In x live -> (3 <= length x)%nat) ->
          process_multinest_run_kw root dead live kw w = (Raise TypeError, w))) /\
    (unknown ["process_stats_file"; "dup_assert"; "dup_warn"]%string kw ->
       forall root rows stats, process_polychord_run_kw root (Ok rows) stats kw w = (Raise TypeError, w)) /\
    (unknown ["logl_init"; "dup_assert"; "dup_warn"]%string kw ->
       forall one init r, run_dead_birth_array_kw one init r kw w = (Raise TypeError, w)) /\
    (unknown ["nsim"; "random_seed"]%string kw ->
       forall os norm a b c d, implementation_std_kw os norm a b c d kw w = (Raise TypeError, w)) /\
    (unknown ["logw"; "simulate"]%string kw -> forall r, count_samples_kw r kw w = (Raise TypeError, w)) /\
    (unknown ["seed"; "ndim"; "logl_start"; "logl_range"]%string kw ->
       forall one os U n k, get_dummy_thread_kw one os U n kw w = (Raise TypeError, w) /\
                            get_dummy_run_kw one os U k n kw w = (Raise TypeError, w)) /\
    (unknown ["seed"; "ndim"; "nthread_init"; "nthread_dyn"; "logl_range"]%string kw ->
       forall init os U n, get_dummy_dynamic_run_kw init os U n kw w = (Raise TypeError, w)) /\
    (unknown ["write_dead"; "write_stats"; "posteriors"; "equals"; "stats_means_errs"; "fmt"; "n_simulate"; "logl_init"]%string kw ->
       forall F one init fmts U toF srt r out s,
         @write_run_output_kw E F one init fmts U toF srt r out kw s w = (Raise TypeError, (out, s), w)).
Proof.
  intros E kw w. split; [|split; [|split; [|split; [|split; [|split; [|split]]]]]].
  - intros H. split; [intros; apply unknown_check; auto|]. split; [|split; [intros; apply unknown_births; auto|split; [intros; apply unknown_samples; auto|]]].
    + intros runs Hne. destruct H as (k & H1 & H2). unfold combine_ns_runs_kw. bound. destruct runs; [congruence|].
      bound. pops. left_over k H1 H2. reflexivity.
    + intros root dead live Hd Hl Hlt Hw1 Hw2. unfold process_multinest_run_kw. bound. cbv zeta.
      destruct dead as [|d0 dead]; [congruence|]. destruct live as [|l0 live]; [congruence|].
      set (D := d0 :: dead) in *. set (L := l0 :: live) in *.
      assert (Elt : (max_list (map s_logl (map (fun x => samp_of_row (drop_cols 2 x)) D)) <?
                     min_list (map s_logl (map (fun x => samp_of_row (drop_cols 1 x)) L))) = true).
      { apply Z.ltb_lt.
        assert (HD : map s_logl (map (fun x => samp_of_row (drop_cols 2 x)) D) <> []) by (unfold D; discriminate).
        assert (HL : map s_logl (map (fun x => samp_of_row (drop_cols 1 x)) L) <> []) by (unfold L; discriminate).
        destruct (max_list_spec _ HD) as [M1 _]. destruct (min_list_spec _ HL) as [M2 _].
        rewrite map_map in M1, M2. apply in_map_iff in M1 as (x & Ex & Hx). apply in_map_iff in M2 as (y & Ey & Hy).
        rewrite !map_map. rewrite <- Ex, <- Ey. specialize (Hlt x y Hx Hy). specialize (Hw1 x Hx). specialize (Hw2 y Hy).
        unfold samp_of_row, drop_cols, s_logl. rewrite !firstn_length, !nth_firstn' by (rewrite ?firstn_length; lia).
        replace (Nat.min (length x - 2) (length x) - 2)%nat with (length x - 4)%nat by lia.
        replace (Nat.min (length y - 1) (length y) - 2)%nat with (length y - 3)%nat by lia. auto. }
      cbn [map] in *. unfold D, L in *. cbn [map] in *. rewrite Elt. unfold wassert, assertb, wlift. unfold wbind at 1.
      unfold wbind at 1. rewrite unknown_samples by auto. reflexivity.
  - intros (k & H1 & H2) root rows stats. unfold process_polychord_run_kw. bound. pops. unfold wbind at 1, wlift.
    unfold wbind at 1. rewrite unknown_samples; auto. exists k. split.
    + apply keys_del. split; auto. intros ->. apply H2. cbn. auto.
    + intros Hk. apply H2. cbn in *. tauto.
  - intros (k & H1 & H2) one init r. unfold run_dead_birth_array_kw. bound. pops. unfold wbind at 1.
    rewrite unknown_check; auto. exists k. split.
    + apply keys_del. split; auto. intros ->. apply H2. cbn. auto.
    + intros Hk. apply H2. cbn in *. tauto.
  - intros (k & H1 & H2) os norm a b c d. unfold implementation_std_kw. bound. pops. left_over k H1 H2. reflexivity.
  - intros (k & H1 & H2) r. unfold count_samples_kw. bound. pops. left_over k H1 H2. reflexivity.
  - intros (k & H1 & H2) one os U n m. split.
    + unfold get_dummy_thread_kw. bound. pops. left_over k H1 H2. reflexivity.
    + unfold get_dummy_run_kw. bound. pops. left_over k H1 H2. reflexivity.
  - intros (k & H1 & H2) init os U n. unfold get_dummy_dynamic_run_kw. bound. pops. left_over k H1 H2. reflexivity.
  - intros (k & H1 & H2) F one init fmts U toF srt r out s. unfold write_run_output_kw.
    destruct (has_key "run" kw); auto. pops.
    match goal with |- context [match ?d with [] => _ | _ :: _ => _ end] => assert (Hin : In k (keys d)) end.
    { repeat (rewrite keys_del); repeat split; auto; intros ->; apply H2; cbn; auto 12. }
    match goal with |- context [match ?d with [] => _ | _ :: _ => _ end] => destruct d; [contradiction|reflexivity] end.
Qed.
Print Assumptions C104_unknown.

(** ** Known keywords, in any order *)
Section Known.
  Variables (kw : dict obj) (da dw : bool).
  Hypothesis Hn : NoDup (keys kw).
  Hypothesis Ha : is_value as_bool kw "dup_assert" false da.
  Hypothesis Hw : is_value as_bool kw "dup_warn" false dw.

  Lemma known_births : forall E b l (w : world E), only dups kw ->
      birth_inds_kw b l kw w = birth_inds_given_contours b l da dw w.
  Proof.
    intros E b l w H. unfold birth_inds_kw. unbound H. pops. nothing_left H.
    rewrite (flag_of kw _ _ _ Hn Ha), (flag_of kw _ _ _ Hn Hw). reflexivity.
  Qed.
  Lemma known_samples : forall E l (w : world E), only dups kw ->
      process_samples_array_kw l kw w = process_samples_array l da dw w.
  Proof.
    intros E l w H. unfold process_samples_array_kw. unbound H. cbv zeta. unfold process_samples_array. cbv zeta.
    unfold wbind at 1. unfold wbind at 2. rewrite known_births by auto. reflexivity.
  Qed.
  Lemma known_check : forall E r (w : world E), only dups kw -> check_ns_run_kw r kw w = check_ns_run r da dw w.
  Proof.
    intros E r w H. unfold check_ns_run_kw. unbound H. pops. nothing_left H.
    rewrite (flag_of kw _ _ _ Hn Ha), (flag_of kw _ _ _ Hn Hw). reflexivity.
  Qed.
End Known.

Theorem C104_checks : forall E kw da dw (w : world E), NoDup (keys kw) -> only dups kw ->
    is_value as_bool kw "dup_assert" false da -> is_value as_bool kw "dup_warn" false dw ->
    (forall r, check_ns_run_kw r kw w = check_ns_run r da dw w) /\
    (forall runs, combine_ns_runs_kw runs kw w = combine_ns_runs runs da dw w) /\
    (forall b l, birth_inds_kw b l kw w = birth_inds_given_contours b l da dw w) /\
    (forall samples, process_samples_array_kw samples kw w = process_samples_array samples da dw w) /\
    (forall root dead live, process_multinest_run_kw root dead live kw w = process_multinest_run root dead live da dw w).
Proof.
  intros E kw da dw w Hn H Ha Hw. split; [|split; [|split; [|split]]].
  - intros r. apply known_check; auto.
  - intros runs. unfold combine_ns_runs_kw. unbound H. destruct runs as [|r runs]; [reflexivity|]. unbound H. pops.
    nothing_left H. rewrite (flag_of kw _ _ _ Hn Ha), (flag_of kw _ _ _ Hn Hw). reflexivity.
  - intros b l. apply known_births; auto.
  - intros samples. apply known_samples; auto.
  - intros root dead live. unfold process_multinest_run_kw. unbound H. unfold process_multinest_run. cbv zeta.
    destruct (map _ dead) as [|d0 ds]; auto. destruct (map _ live) as [|l0 ls]; auto.
    unfold wbind at 1. unfold wbind at 3. destruct (wassert _ w) as [[u|e] w1] eqn:Ew; auto.
    unfold wbind at 1. unfold wbind at 2. rewrite (known_samples kw da dw) by auto. reflexivity.
Qed.
Print Assumptions C104_checks.

Lemma only_del : forall k known kw, only (k :: known) kw -> only known (del_key k kw).
Proof. intros k known kw H j Hj. apply keys_del in Hj as [Hj Hne]. apply H in Hj as [->|Hj]; [congruence|auto]. Qed.
Lemma nodup_del : forall k (kw : dict obj), NoDup (keys kw) -> NoDup (keys (del_key k kw)).
Proof.
  intros k kw. induction kw as [|[j v] t IH]; intros H; [constructor|]. inversion H; subst. cbn [del_key filter fst].
  destruct (negb (String.eqb k j)); auto. cbn [keys map fst]. constructor; auto.
  intros Hi. apply H2. apply (keys_del k j t) in Hi as [Hi _]. auto.
Qed.
Lemma value_del : forall A (conv : obj -> option A) k j kw d a, k <> j -> is_value conv kw k d a ->
    is_value conv (del_key j kw) k d a.
Proof.
  intros A conv k j kw d a Hne [(v & Hi & E)|[Hno ->]].
  - left. exists v. split; auto. apply filter_In. split; auto. cbn. destruct (String.eqb_spec j k); [congruence|auto].
  - right. split; auto. intros Hi. apply keys_del in Hi as [Hi _]. auto.
Qed.

Theorem C104_files : forall E kw da dw (w : world E), NoDup (keys kw) ->
    is_value as_bool kw "dup_assert" false da -> is_value as_bool kw "dup_warn" false dw ->
    (only ["process_stats_file"; "dup_assert"; "dup_warn"]%string kw ->
       forall ps root rows stats, is_value as_bool kw "process_stats_file" true ps ->
         process_polychord_run_kw root rows stats kw w =
           match rows with
           | Ok rows => process_polychord_run root rows ps stats da dw w
           | Raise e => (Raise e, w)
           end) /\
    (only ["logl_init"; "dup_assert"; "dup_warn"]%string kw ->
       forall one init r z,
         is_value (fun o => match float one o with Some (Fin z) => Some z | _ => None end) kw "logl_init" init z ->
         run_dead_birth_array_kw one init r kw w = run_dead_birth_array r z da dw w).
Proof.
  intros E kw da dw w Hn Ha Hw. split.
  - intros H ps root rows stats Hp. unfold process_polychord_run_kw. unbound H. pops. destruct rows as [rows|e]; [|reflexivity].
    unfold wbind at 1, wlift. unfold process_polychord_run. unfold wbind at 1. unfold wbind at 2.
    rewrite (known_samples _ da dw); auto using nodup_del, only_del; try (apply value_del; [discriminate|auto]).
    rewrite (flag_of kw _ _ _ Hn Hp). reflexivity.
  - intros H one init r z Hz. unfold run_dead_birth_array_kw. unbound H. pops. unfold run_dead_birth_array.
    unfold wbind at 1. unfold wbind at 2.
    rewrite (known_check _ da dw); auto using nodup_del, only_del; try (apply value_del; [discriminate|auto]).
    destruct Hz as [(v & Hi & Ev)|[Hno ->]].
    + rewrite (get_key_in _ v kw) by auto. destruct (float one v) as [[|y]|]; try discriminate. injection Ev as ->. reflexivity.
    + rewrite get_key_none by auto. reflexivity.
Qed.
Print Assumptions C104_files.

(** ** Bootstrap *)
Notation boot := ["ninit_sep"; "flip_skew"; "n_simulate"; "random_seeds"]%string (only parsing).
(** The order of the checks: n_simulate must be there, then random_seeds must
    have that length (if it is given), and only then are unknown keywords
    noticed.  Nothing is drawn. *)
Theorem C104_bootstrap_errors : forall E os srt r l kw (w : world E), NoDup (keys kw) ->
    ~ In "ns_run"%string (keys kw) -> ~ In "estimator_list"%string (keys kw) ->
    (~ In "n_simulate"%string (keys kw) -> run_bootstrap_values_kw os srt r l kw w = (Raise KeyError, w)) /\
    (forall n o, In ("n_simulate"%string, o) kw -> index o = Some n ->
       (forall objs, In ("random_seeds"%string, OList objs) kw -> Z.of_nat (length objs) <> n ->
          run_bootstrap_values_kw os srt r l kw w = (Raise AssertionError, w)) /\
       (n < 0 -> ~ In "random_seeds"%string (keys kw) -> run_bootstrap_values_kw os srt r l kw w = (Raise AssertionError, w)) /\
       (unknown boot kw -> 0 <= n -> (forall o, In ("random_seeds"%string, o) kw -> exists objs, o = OList objs /\ Z.of_nat (length objs) = n) ->
          run_bootstrap_values_kw os srt r l kw w = (Raise TypeError, w))) /\
    (forall o, In ("n_simulate"%string, o) kw -> index o = None -> run_bootstrap_values_kw os srt r l kw w = (Raise TypeError, w)).
Proof.
  intros E os srt r l kw w Hn H1 H2.
  assert (Hb : forall k, In k ["ns_run"; "estimator_list"]%string -> ~ In k (keys kw)) by (intros k [<-|[<-|[]]]; auto).
  unfold run_bootstrap_values_kw. unfold wbind. rewrite (bind_ok _ _ kw w) by exact Hb. pops. cbv beta iota.
  split; [intros H; rewrite get_key_none by auto; reflexivity|].
  split; [|intros o Ho Ei; rewrite (get_key_in _ o kw), Ei by auto; reflexivity].
  intros n o Ho Ei. rewrite (get_key_in "n_simulate" o kw), Ei by auto. split; [|split].
  - intros objs Hobjs Hne. rewrite (get_key_in "random_seeds" (OList objs) kw) by auto.
    rewrite (proj2 (Z.eqb_neq _ _) Hne). reflexivity.
  - intros Hneg Hno. rewrite (get_key_none "random_seeds") by auto. rewrite map_length.
    replace (Z.of_nat (length (zrange (Z.to_nat n))) =? n) with false by (symmetry; apply Z.eqb_neq; lia). reflexivity.
  - intros (k & K1 & K2) Hpos Hs.
    assert (Hrs : exists rs, match get_key "random_seeds" kw with
                             | None => Some (map OInt (zrange (Z.to_nat n)))
                             | Some (OList l) => Some l | Some _ => None end = Some rs /\ Z.of_nat (length rs) = n).
    { destruct (in_dec string_dec "random_seeds"%string (keys kw)) as [Hi|Hi].
      - apply in_map_iff in Hi as ([k' v] & Ek & Hv). cbn in Ek. subst k'. destruct (Hs v Hv) as (objs & -> & Hl).
        rewrite (get_key_in _ _ kw Hn Hv). eauto.
      - rewrite (get_key_none _ kw Hi). eexists. split; [reflexivity|]. rewrite map_length. unfold zrange.
        rewrite map_length, seq_length. lia. }
    destruct Hrs as (rs & -> & Hl). rewrite (proj2 (Z.eqb_eq _ _) Hl). unfold wassert, assertb, wlift.
    rewrite (no_more_unknown _ _ k); auto.
    repeat (rewrite keys_del). repeat split; auto; intros ->; apply K2; cbn; auto.
Qed.
Print Assumptions C104_bootstrap_errors.

(** What a seed means: False keeps the state, an integer seeds, None takes a
    state from the operating system. *)
Inductive seed_means {E} (os : nat -> rst E) (i : nat) : obj -> bseed E -> Prop :=
| MeansKeep : seed_means os i (OBool false) BKeep
| MeansInt : forall z, seed_means os i (OInt z) (BInt z)
| MeansFresh : seed_means os i ONone (BFresh (os i)).
(** Arguments of run_bootstrap_values. *)
Definition boot_args {E} (os : nat -> rst E) (kw : dict obj) (ns fs : bool) (n : nat) (seeds : list (bseed E)) : Prop :=
  NoDup (keys kw) /\ only boot kw /\
  is_value as_bool kw "ninit_sep" false ns /\ is_value as_bool kw "flip_skew" true fs /\
  In ("n_simulate"%string, OInt (Z.of_nat n)) kw /\
  ((~ In "random_seeds"%string (keys kw) /\ seeds = map BInt (map Z.of_nat (seq 0 n))) \/
   exists objs, In ("random_seeds"%string, OList objs) kw /\ length objs = n /\ length seeds = n /\
                forall i o, nth_error objs i = Some o -> exists b, nth_error seeds i = Some b /\ seed_means os i o b).

Lemma seeds_of_ints : forall E (os : nat -> rst E) zs i, seeds_of os i (map OInt zs) = (map BInt zs, true).
Proof. intros E os zs. induction zs as [|z t IH]; intros i; cbn; auto. rewrite IH. auto. Qed.
Lemma seeds_of_means : forall E (os : nat -> rst E) objs seeds i, length seeds = length objs ->
    (forall j o, nth_error objs j = Some o -> exists b, nth_error seeds j = Some b /\ seed_means os (i + j) o b) ->
    seeds_of os i objs = (seeds, true).
Proof.
  intros E os objs. induction objs as [|o t IH]; intros [|b seeds] i Hl H; try discriminate; auto. cbn [seeds_of].
  destruct (H 0%nat o eq_refl) as (b' & Eb & Hm). injection Eb as <-. rewrite Nat.add_0_r in Hm.
  rewrite (IH seeds (S i)).
  - inversion Hm; subst; reflexivity.
  - cbn in Hl. lia.
  - intros j o' Hj. destruct (H (S j) o' Hj) as (b' & Eb & Hm'). exists b'. split; auto.
    replace (S i + j)%nat with (i + S j)%nat by lia. auto.
Qed.
Lemma boot_known : forall E os srt r l kw ns fs n seeds (w : world E), boot_args os kw ns fs n seeds ->
    run_bootstrap_values_kw os srt r l kw w = run_bootstrap_values srt r l ns fs n seeds w.
Proof.
  intros E os srt r l kw ns fs n seeds w (Hn & H & Hns & Hfs & Hsim & Hseeds).
  unfold run_bootstrap_values_kw. unbound H. pops. rewrite (get_key_in _ _ kw Hn Hsim). cbn [index]. rewrite Nat2Z.id.
  assert (Hrs : exists rs, match get_key "random_seeds" kw with
                           | None => Some (map OInt (zrange n))
                           | Some (OList l) => Some l | Some _ => None end = Some rs /\
                           length rs = n /\ seeds_of os 0 rs = (seeds, true)).
  { destruct Hseeds as [[Hno ->]|(objs & Ho & Hl & Hl2 & Hm)].
    - rewrite (get_key_none _ kw Hno). eexists. split; [reflexivity|]. split; [|apply seeds_of_ints].
      unfold zrange. rewrite !map_length, seq_length. auto.
    - rewrite (get_key_in _ _ kw Hn Ho). exists objs. split; auto. split; auto. apply seeds_of_means; [lia|].
      intros j o Hj. cbn [Nat.add]. auto. }
  destruct Hrs as (rs & -> & Hl & ->). rewrite Hl, Z.eqb_refl. unfold wassert, assertb, wlift. unfold wbind at 1.
  nothing_left H. rewrite (flag_of kw _ _ _ Hn Hns), (flag_of kw _ _ _ Hn Hfs). reflexivity.
Qed.

Lemma keys_perm : forall kw kw' : dict obj, Permutation kw kw' -> Permutation (keys kw) (keys kw').
Proof. intros. unfold keys. apply Permutation_map. auto. Qed.
Lemma del_perm : forall k v (kw kw' : dict obj), Permutation kw ((k, v) :: kw') -> ~ In k (keys kw') ->
    Permutation (del_key k kw) kw'.
Proof.
  intros k v kw kw' HP Hk. unfold del_key.
  assert (HQ : Permutation (filter (fun p => negb (String.eqb k (fst p))) kw)
                           (filter (fun p => negb (String.eqb k (fst p))) ((k, v) :: kw'))).
  { clear Hk. induction HP; cbn; auto.
    - destruct (negb _); auto.
    - destruct (negb _), (negb _); auto. apply perm_swap.
    - etransitivity; eauto. }
  rewrite HQ. cbn [filter fst]. rewrite String.eqb_refl. cbn [negb].
  replace (filter _ kw') with kw'; auto. symmetry. clear HP HQ. induction kw' as [|[j u] t IH]; auto. cbn [filter fst].
  cbn in Hk. destruct (String.eqb_spec k j) as [->|Hne]; [exfalso; auto|]. cbn [negb]. f_equal. auto.
Qed.
Lemma boot_args_perm : forall E (os : nat -> rst E) kw kw' ns fs n seeds, Permutation kw kw' ->
    boot_args os kw' ns fs n seeds -> boot_args os kw ns fs n seeds.
Proof.
  intros E os kw kw' ns fs n seeds HP (A1 & A2 & A3 & A4 & A5 & A6).
  assert (HK : forall k, In k (keys kw) <-> In k (keys kw')).
  { intros k. split; apply Permutation_in; [apply keys_perm; auto|apply Permutation_sym, keys_perm; auto]. }
  assert (HI : forall p, In p kw' -> In p kw) by (intros p; apply Permutation_in, Permutation_sym; auto).
  assert (HV : forall k d a, is_value as_bool kw' k d a -> is_value as_bool kw k d a).
  { intros k d a [(v & Hi & Ev)|[Hno ->]]; [left; eauto|right; split; auto; rewrite HK; auto]. }
  split; [eapply Permutation_NoDup; [apply Permutation_sym, keys_perm; eauto|auto]|].
  split; [intros k Hk; apply A2, HK; auto|]. split; auto. split; auto. split; auto.
  destruct A6 as [[Hno Hs]|(objs & Ho & Hr)]; [left; split; auto; rewrite HK; auto|right; eauto].
Qed.

Lemma row_lengths : forall E srt r l ns fs n seeds (w : world E) rows w',
    run_bootstrap_values srt r l ns fs n seeds w = (Ok rows, w') -> forall row, In row rows -> length row = n.
Proof.
  intros E srt r l ns fs n seeds w rows w' H row Hrow. unfold run_bootstrap_values in H.
  apply wbind_Ok in H as (cols & w1 & Hc & H). injection H as <- _.
  assert (Hl : length cols = n).
  { unfold bootstrap_columns in Hc. apply wbind_Ok in Hc as (u & w2 & Hu & Hc). unfold wassert, assertb, wlift in Hu.
    destruct (length seeds =? n)%nat eqn:El; [|discriminate]. apply Nat.eqb_eq in El.
    apply wbind_Ok in Hc as (ths & w3 & _ & Hc). rewrite <- El. clear -Hc. revert w3 cols w1 Hc.
    induction seeds as [|b t IH]; intros w3 cols w1 Hc; cbn [wmapM] in Hc.
    - injection Hc as <- _. reflexivity.
    - apply wbind_Ok in Hc as (y & w4 & _ & Hc). apply wbind_Ok in Hc as (ys & w5 & Hys & Hc). injection Hc as <- _.
      cbn. f_equal. eapply IH; eauto. }
  assert (HR : forall x, In x (rows_of (length l) cols) -> length x = n).
  { intros x Hx. apply in_map_iff in Hx as (j & <- & _). unfold nth_row. rewrite map_length. auto. }
  destruct fs; auto. apply in_map_iff in Hrow as (x & <- & Hx). unfold flip_row. rewrite map_length. auto.
Qed.

(** cred_int is taken out by run_ci_bootstrap, which needs it; run_std_bootstrap
    does not know it. *)
Theorem C104_bootstrap : forall E os srt r l kw ns fs n seeds (w : world E), boot_args os kw ns fs n seeds ->
    run_bootstrap_values_kw os srt r l kw w = run_bootstrap_values srt r l ns fs n seeds w /\
    run_std_bootstrap_kw os srt r l kw w = run_std_bootstrap srt r l ns fs n seeds w /\
    (forall one, run_ci_bootstrap_kw one os srt r l kw w = (Raise KeyError, w)) /\
    (forall kw' c, Permutation kw' (("cred_int"%string, c) :: kw) ->
       run_std_bootstrap_kw os srt r l kw' w = (Raise TypeError, w) /\
       forall one z, float one c = Some (Fin z) ->
         run_ci_bootstrap_kw one os srt r l kw' w = run_ci_bootstrap srt r l (fval z) ns fs n seeds w).
Proof.
  intros E os srt r l kw ns fs n seeds w HB. pose proof (boot_known E os srt r l kw ns fs n seeds w HB) as HK.
  destruct HB as (A1 & A2 & A3 & A4 & A5 & A6). assert (HB : boot_args os kw ns fs n seeds) by (repeat split; auto).
  assert (Hci : ~ In "cred_int"%string (keys kw)) by (intros Hi; apply A2 in Hi; cbn in Hi; intuition congruence).
  split; auto. split; [unfold run_std_bootstrap_kw, run_std_bootstrap, wbind; rewrite HK; reflexivity|].
  split; [intros one; unfold run_ci_bootstrap_kw; unbound A2; pops; rewrite get_key_none by auto; reflexivity|].
  intros kw' c HP.
  assert (HN : NoDup (keys kw')).
  { eapply Permutation_NoDup; [apply Permutation_sym, (keys_perm _ _ HP)|]. cbn. constructor; auto. }
  assert (HI : forall k, In k (keys kw') <-> k = "cred_int"%string \/ In k (keys kw)).
  { intros k. split; intros Hk.
    - apply (Permutation_in _ (keys_perm _ _ HP)) in Hk as [<-|Hk]; auto.
    - apply (Permutation_in _ (Permutation_sym (keys_perm _ _ HP))). destruct Hk as [->|Hk]; [left|right]; auto. }
  assert (Hin : forall p, In p kw -> In p kw').
  { intros p Hp. apply (Permutation_in _ (Permutation_sym HP)). right. auto. }
  split.
  - unfold run_std_bootstrap_kw, wbind.
    destruct (C104_bootstrap_errors E os srt r l kw' w HN) as (_ & HE & _).
    + rewrite HI. intros [Hx|Hx]; [discriminate|]. apply A2 in Hx. cbn in Hx. intuition congruence.
    + rewrite HI. intros [Hx|Hx]; [discriminate|]. apply A2 in Hx. cbn in Hx. intuition congruence.
    + destruct (HE (Z.of_nat n) (OInt (Z.of_nat n)) (Hin _ A5) eq_refl) as (_ & _ & HT). rewrite HT; auto; try lia.
      * exists "cred_int"%string. split; [apply HI; auto|]. cbn. intuition discriminate.
      * intros o Ho. destruct A6 as [[Hno _]|(objs & Ho2 & Hl & _)].
        -- exfalso. apply Hno. assert (Hk : In "random_seeds"%string (keys kw')) by (apply in_map_iff; eexists; split; [|exact Ho]; auto).
           apply HI in Hk as [Hk|Hk]; [discriminate|auto].
        -- exists objs. split; [|lia]. pose proof (get_key_in _ _ kw' HN Ho) as G1.
           pose proof (get_key_in _ _ kw' HN (Hin _ Ho2)) as G2. congruence.
  - intros one z Hz. unfold run_ci_bootstrap_kw.
    unfold wbind at 1. rewrite (bind_ok _ _ kw' w).
    2:{ intros k Hk Hx. apply HI in Hx as [->|Hx]; [cbn in Hk; intuition discriminate|]. apply A2 in Hx. cbn in Hk, Hx. intuition congruence. }
    pops. rewrite (get_key_in _ c kw' HN) by (apply (Permutation_in _ (Permutation_sym HP)); left; auto).
    unfold run_ci_bootstrap. unfold wbind at 1. unfold wbind at 2.
    rewrite (boot_known E os srt r l (del_key "cred_int" kw') ns fs n seeds w).
    2:{ eapply boot_args_perm; [eapply del_perm; eauto|auto]. }
    destruct (run_bootstrap_values srt r l ns fs n seeds w) as [[rows|e] w1] eqn:ER; auto.
    pose proof (row_lengths _ _ _ _ _ _ _ _ _ _ _ ER) as HR.
    unfold wbind. destruct (wlift (run_estimators srt r l None) w1) as [[ex|e] w2]; auto. rewrite Hz.
    unfold wlift. f_equal. clear -HR. revert rows HR. induction ex as [|t ex IH]; intros [|row rows] HR; auto.
    cbn [combine mapM]. rewrite (HR row) by (left; auto). destruct (finterp _ _ _) as [q|e]; auto. cbn [rbind].
    rewrite IH; auto. intros row' Hr'. apply HR. right. auto.
Qed.
Print Assumptions C104_bootstrap.

(** ** implementation_std, count_samples and dummy data *)
Theorem C104_implementation_std : forall E os norm a b c d kw n s (w : world E), NoDup (keys kw) ->
    only ["nsim"; "random_seed"]%string kw ->
    is_value index kw "nsim" 1000000 n -> 0 <= n -> is_value index kw "random_seed" 0 s ->
    implementation_std_kw os norm a b c d kw w = implementation_std norm a b c d (Z.to_nat n) (BInt s) w.
Proof.
  intros E os norm a b c d kw n s w Hn H Hsim Hpos Hs. unfold implementation_std_kw. unbound H. pops. nothing_left H.
  unfold wbind at 1. cbn [no_more]. unfold wret.
  replace (match get_key "nsim" kw with Some o => index o | None => Some 1000000 end) with (Some n).
  2:{ destruct Hsim as [(v & Hi & Ev)|[Hno ->]]; [rewrite (get_key_in _ v kw) by auto; auto|rewrite get_key_none by auto; auto]. }
  assert (Eb : match get_key "random_seed" kw with
               | Some (OBool false) => Some (BInt 0) | Some o => seed_of os 0 o | None => Some (BInt 0) end = Some (BInt s)).
  { destruct Hs as [(v & Hi & Ev)|[Hno ->]]; [rewrite (get_key_in _ v kw) by auto|rewrite get_key_none by auto; auto].
    destruct v as [| [|] |z| | | |]; try discriminate; injection Ev as <-; reflexivity. }
  rewrite Eb. destruct (Z.ltb_spec n 0); [lia|reflexivity].
Qed.
Print Assumptions C104_implementation_std.
Theorem C104_count_samples : forall E r kw (w : world E), only ["logw"; "simulate"]%string kw ->
    count_samples_kw r kw w = (Ok (Some (INR (length (logl r)))), w).
Proof. intros E r kw w H. unfold count_samples_kw. unbound H. pops. nothing_left H. reflexivity. Qed.
Print Assumptions C104_count_samples.

(** seed=False, the default, does not seed. *)
Definition as_seed (o : obj) : option (option Z) :=
  match o with OBool false => Some None | OInt z => Some (Some z) | _ => None end.
Lemma seed_known : forall E (os : nat -> rst E) kw sd, NoDup (keys kw) -> is_value as_seed kw "seed" None sd ->
    seed_kw os (get_key "seed" kw) = maybe_seed sd.
Proof.
  intros E os kw sd Hn [(v & Hi & Ev)|[Hno ->]].
  - rewrite (get_key_in _ v kw) by auto. destruct v as [| [|] |z| | | |]; try discriminate; injection Ev as <-; reflexivity.
  - rewrite get_key_none by auto. reflexivity.
Qed.
Lemma start_known : forall one kw x, NoDup (keys kw) -> is_value (float one) kw "logl_start" NInf x ->
    start_kw one (get_key "logl_start" kw) = Some x.
Proof.
  intros one kw x Hn [(v & Hi & Ev)|[Hno ->]]; [rewrite (get_key_in _ v kw) by auto; auto|rewrite get_key_none by auto; auto].
Qed.
Theorem C104_dummy : forall E (os : nat -> rst E) U kw sd nd lr (w : world E), NoDup (keys kw) ->
    is_value as_seed kw "seed" None sd -> is_value as_is kw "ndim" (OInt 2) nd -> is_value as_is kw "logl_range" (OInt 1) lr ->
    (only ["seed"; "ndim"; "logl_start"; "logl_range"]%string kw ->
       forall one x nthread n, is_value (float one) kw "logl_start" NInf x ->
         get_dummy_thread_kw one os U n kw w = get_dummy_thread (U nd lr) n sd x w /\
         get_dummy_run_kw one os U nthread n kw w = get_dummy_run (U nd lr) nthread n sd x w) /\
    (only ["seed"; "ndim"; "nthread_init"; "nthread_dyn"; "logl_range"]%string kw ->
       forall init n a b, is_value index kw "nthread_init" 2 (Z.of_nat a) -> is_value index kw "nthread_dyn" 3 (Z.of_nat b) ->
         get_dummy_dynamic_run_kw init os U n kw w = get_dummy_dynamic_run (U nd lr) n a b sd init w).
Proof.
  intros E os U kw sd nd lr w Hn Hsd Hnd Hlr. split.
  - intros H one x nthread n Hx. split.
    + unfold get_dummy_thread_kw. unbound H. pops. nothing_left H. rewrite (seed_known E os kw sd Hn Hsd), (start_known one kw x Hn Hx).
      rewrite (value_of kw _ _ _ Hn Hnd), (value_of kw _ _ _ Hn Hlr). reflexivity.
    + unfold get_dummy_run_kw. unbound H. pops. nothing_left H. rewrite (seed_known E os kw sd Hn Hsd), (start_known one kw x Hn Hx).
      rewrite (value_of kw _ _ _ Hn Hnd), (value_of kw _ _ _ Hn Hlr). reflexivity.
  - intros H init n a b Ha Hb. unfold get_dummy_dynamic_run_kw. unbound H. pops. nothing_left H.
    rewrite (seed_known E os kw sd Hn Hsd), (value_of kw _ _ _ Hn Hnd), (value_of kw _ _ _ Hn Hlr).
    assert (Ha' : index (or_else (get_key "nthread_init" kw) (OInt 2)) = Some (Z.of_nat a)).
    { destruct Ha as [(v & Hi & Ev)|[Hno Ea]]; [rewrite (get_key_in _ v kw) by auto; auto|].
      rewrite get_key_none by auto. cbn. f_equal. auto. }
    assert (Hb' : index (or_else (get_key "nthread_dyn" kw) (OInt 3)) = Some (Z.of_nat b)).
    { destruct Hb as [(v & Hi & Ev)|[Hno Ea]]; [rewrite (get_key_in _ v kw) by auto; auto|].
      rewrite get_key_none by auto. cbn. f_equal. auto. }
    rewrite Ha', Hb'. destruct (Z.ltb_spec (Z.of_nat a) 0); [lia|]. destruct (Z.ltb_spec (Z.of_nat b) 0); [lia|].
    rewrite !Nat2Z.id. cbn [orb]. destruct sd as [z|]; [|reflexivity].
    unfold get_dummy_dynamic_run, get_dummy_run. cbn [maybe_seed]. unfold wbind, seed, set_state, wraise. destruct (good_seed z); reflexivity.
Qed.
Print Assumptions C104_dummy.
(** The keyword logl_start, which the docstring of get_dummy_dynamic_run lists,
    is not accepted. *)
Theorem C104_documented_refuted : forall E init os U n x (w : world E),
    get_dummy_dynamic_run_kw init os U n [("logl_start"%string, x)] w = (Raise TypeError, w).
Proof. reflexivity. Qed.
Print Assumptions C104_documented_refuted.

(** ** write_run_output *)
Theorem C104_write : forall E F one init fmts U toF srt r out kw s (w : world E) dead stats post equals means n z fm,
    NoDup (keys kw) ->
    only ["write_dead"; "write_stats"; "posteriors"; "equals"; "stats_means_errs"; "fmt"; "n_simulate"; "logl_init"]%string kw ->
    is_value as_bool kw "write_dead" true dead -> is_value as_bool kw "write_stats" true stats ->
    is_value as_bool kw "posteriors" false post -> is_value as_bool kw "equals" false equals ->
    is_value as_bool kw "stats_means_errs" true means ->
    is_value (fun o => Some (Some o)) kw "fmt" None fm -> is_value index kw "n_simulate" 100 (Z.of_nat n) ->
    is_value (fun o => match float one o with Some (Fin z) => Some z | _ => None end) kw "logl_init" init z ->
    @write_run_output_kw E F one init fmts U toF srt r out kw s w =
      ModelWrite.write_run_output (fmts fm) U toF srt r out (ModelWrite.mkOpts dead stats post equals means n z) s w.
Proof.
  intros E F one init fmts U toF srt r out kw s w dead stats post equals means n z fm Hn H H1 H2 H3 H4 H5 H6 H7 H8.
  unfold write_run_output_kw. rewrite has_key_no.
  2:{ intros Hi. apply H in Hi. cbn in Hi. intuition congruence. }
  pops.
  match goal with |- context [match ?d with [] => _ | _ :: _ => _ end] => replace d with (@nil (string * obj)) end.
  2:{ symmetry. apply no_keys. intros k Hk. repeat (rewrite keys_del in Hk). destruct_ands Hk. apply H in Hk. cbn in Hk. intuition congruence. }
  rewrite (flag_of kw _ _ _ Hn H1), (flag_of kw _ _ _ Hn H2), (flag_of kw _ _ _ Hn H3), (flag_of kw _ _ _ Hn H4), (flag_of kw _ _ _ Hn H5).
  assert (Efm : get_key "fmt" kw = fm).
  { destruct H6 as [(v & Hi & Ev)|[Hno ->]]; [rewrite (get_key_in _ v kw) by auto; congruence|apply get_key_none; auto]. }
  assert (En : index (or_else (get_key "n_simulate" kw) (OInt 100)) = Some (Z.of_nat n)).
  { destruct H7 as [(v & Hi & Ev)|[Hno Ea]]; [rewrite (get_key_in _ v kw) by auto; auto|].
    rewrite get_key_none by auto. cbn. f_equal. auto. }
  assert (Ez : match get_key "logl_init" kw with Some o => float one o | None => Some (Fin init) end = Some (Fin z)).
  { destruct H8 as [(v & Hi & Ev)|[Hno ->]]; [rewrite (get_key_in _ v kw) by auto|rewrite get_key_none by auto; auto].
    destruct (float one v) as [[|y]|]; try discriminate. congruence. }
  rewrite Efm, En, Ez. destruct (Z.ltb_spec (Z.of_nat n) 0); [lia|]. rewrite Nat2Z.id. reflexivity.
Qed.
Print Assumptions C104_write.

(** ** Saved results *)
Notation wrapper := ["save_name"; "save"; "load"; "overwrite_existing"; "warn_if_error"]%string (only parsing).
Definition rest_of (kw : dict obj) : dict obj :=
  filter (fun p => negb (if in_dec string_dec (fst p) wrapper then true else false)) kw.
Lemma filter_twice : forall (A : Type) (f g : A -> bool) l, filter f (filter g l) = filter (fun x => g x && f x) l.
Proof. induction l as [|x l IH]; auto. cbn. destruct (g x); cbn; [destruct (f x); rewrite IH|]; auto. Qed.
Lemma dels_rest : forall kw, del_key "warn_if_error" (del_key "overwrite_existing" (del_key "load" (del_key "save" (del_key "save_name" kw)))) = rest_of kw.
Proof.
  intros kw. unfold del_key, rest_of. rewrite !filter_twice. apply filter_ext. intros [k v]. cbn [fst].
  destruct (in_dec string_dec k wrapper) as [Hi|Hi]; cbn [negb].
  - cbn in Hi. destruct Hi as [<-|[<-|[<-|[<-|[<-|[]]]]]]; reflexivity.
  - cbn in Hi. rewrite !andb_true_iff. rewrite !negb_true_iff. rewrite !String.eqb_neq. repeat split; intros E; apply Hi; rewrite E; auto 6.
Qed.
Lemma dels_known : forall known (kw : dict obj) k, In k (keys (fold_left (fun kw k => snd (pop k kw)) known kw)) <->
    In k (keys kw) /\ ~ In k known.
Proof.
  induction known as [|j known IH]; intros kw k; cbn [fold_left]; [cbn; tauto|]. rewrite IH. unfold pop. cbn [snd].
  rewrite keys_del. cbn. split; intros [A B]; [destruct A; split; [auto|]; intros [->|C]; congruence|]. split; [split|]; auto.
Qed.
Definition as_name (o : obj) : option (option string) :=
  match o with ONone => Some None | OStr s => Some (Some s) | _ => None end.
Lemma saved_known : forall P f now func kw name, NoDup (keys kw) -> is_value as_name kw "save_name" None name ->
    saved_kw P f now func kw =
      ModelIO.decorated P f now (func (rest_of kw))
        (ModelIO.mkKwargs name (option_map truth (get_key "save" kw)) (option_map truth (get_key "load" kw))
                          (flag (get_key "overwrite_existing" kw) true) (flag (get_key "warn_if_error" kw) false)).
Proof.
  intros P f now func kw name Hn Hname. unfold saved_kw. pops. rewrite dels_rest.
  destruct Hname as [(v & Hi & Ev)|[Hno ->]].
  - rewrite (get_key_in _ v kw) by auto. destruct v; try discriminate; injection Ev as <-; reflexivity.
  - rewrite (get_key_none "save_name") by auto. reflexivity.
Qed.

(** The keywords of a decorated function are not checked if its result is read
    from a file: the result is returned for whatever other keywords. *)
Theorem C104_saved_unchecked : forall P now known body kw name v bytes s, NoDup (keys kw) ->
    In ("save_name"%string, OStr name) kw -> (forall o, In ("load"%string, o) kw -> truth o = true) ->
    ModelIO.files s (ModelIO.pkl name) = Some bytes -> ModelIO.load P bytes = ModelIO.Done v ->
    saved_kw P ModelIO.no_faults now (checked known body) kw s = ([], (ModelIO.Done v, s)).
Proof.
  intros P now known body kw name v bytes s Hn Hname Hload Hf Hl.
  rewrite (saved_known P _ now _ kw (Some name) Hn) by (left; eexists; split; [exact Hname|reflexivity]).
  unfold ModelIO.decorated. cbn [ModelIO.k_load ModelIO.k_save_name ModelIO.k_warn].
  replace (ModelIO.or_default (option_map truth (get_key "load" kw)) (ModelIO.given (Some name))) with true.
  2:{ destruct (in_dec string_dec "load"%string (keys kw)) as [Hi|Hi].
      - apply in_map_iff in Hi as ([k o] & Ek & Ho). cbn in Ek. subst k. rewrite (get_key_in _ _ kw Hn Ho). cbn. rewrite Hload; auto.
      - rewrite (get_key_none _ kw Hi). reflexivity. }
  unfold ModelIO.mbind at 1, ModelIO.mcatch, ModelIO.pickle_load, ModelIO.no_faults, ModelIO.fail. cbn [ModelIO.f_read].
  unfold ModelIO.mbind, ModelIO.mget, ModelIO.mret. rewrite Hf, Hl. reflexivity.
Qed.
Print Assumptions C104_saved_unchecked.
(** Otherwise unknown keywords raise TypeError, and nothing is saved. *)
Theorem C104_saved_checked : forall P now known body kw s, NoDup (keys kw) ->
    unknown (wrapper ++ known) kw ->
    (forall o, In ("save_name"%string, o) kw -> o = ONone \/ exists name, o = OStr name /\
        ((exists l, In ("load"%string, l) kw /\ truth l = false) \/ ModelIO.files s (ModelIO.pkl name) = None)) ->
    exists t s', saved_kw P ModelIO.no_faults now (checked known body) kw s = (t, (ModelIO.Err (ModelIO.FuncErr 1), s')) /\
      ModelIO.files s' = ModelIO.files s /\ ModelIO.dirs s' = ModelIO.dirs s /\
      (forall x, In x t -> ModelIO.files x = ModelIO.files s).
Proof.
  intros P now known body kw s Hn (k & K1 & K2) Hname.
  assert (Hc : forall n, checked known body (rest_of kw) n = ModelIO.Err (ModelIO.FuncErr 1)).
  { intros n. unfold checked.
    assert (Hk : In k (keys (fold_left (fun kw k => snd (pop k kw)) known (rest_of kw)))).
    { apply dels_known. split; [|intros Hk; apply K2, in_or_app; auto]. rewrite <- dels_rest. repeat (rewrite keys_del).
      repeat split; auto; intros ->; apply K2, in_or_app; left; cbn; auto 10. }
    destruct (fold_left _ known (rest_of kw)); [contradiction|reflexivity]. }
  assert (HN : exists name, is_value as_name kw "save_name" None name /\
             (forall nm, name = Some nm -> (exists l, In ("load"%string, l) kw /\ truth l = false) \/ ModelIO.files s (ModelIO.pkl nm) = None)).
  { destruct (in_dec string_dec "save_name"%string (keys kw)) as [Hi|Hi].
    - apply in_map_iff in Hi as ([k' o] & Ek & Ho). cbn in Ek. subst k'. destruct (Hname o Ho) as [->|(nm & -> & Hd)].
      + exists None. split; [left; eexists; split; [exact Ho|reflexivity]|]. intros nm E. discriminate.
      + exists (Some nm). split; [left; eexists; split; [exact Ho|reflexivity]|]. intros nm' E. injection E as <-. auto.
    - exists None. split; [right; auto|]. intros nm E. discriminate. }
  destruct HN as (name & Hv & Hnm). rewrite (saved_known P _ now _ kw name Hn Hv).
  unfold ModelIO.decorated. cbn [ModelIO.k_load ModelIO.k_save_name ModelIO.k_warn ModelIO.k_save ModelIO.k_overwrite].
  set (ld := ModelIO.or_default (option_map truth (get_key "load" kw)) (ModelIO.given name)).
  assert (HL : exists t1 s1, (if ld
              then match name with
                   | Some nm => ModelIO.mcatch (ModelIO.mbind (ModelIO.pickle_load P ModelIO.no_faults nm) (fun v => ModelIO.mret (Some v))) ModelIO.is_os
                        (fun _ => ModelIO.mbind (if flag (get_key "warn_if_error" kw) false then ModelIO.mwarn ModelIO.WLoad else ModelIO.mret tt) (fun _ => ModelIO.mret None))
                   | None => ModelIO.mbind (ModelIO.mwarn ModelIO.WNoLoadName) (fun _ => ModelIO.mret None)
                   end
              else ModelIO.mret None) s = (t1, (ModelIO.Done None, s1)) /\ ModelIO.files s1 = ModelIO.files s /\ ModelIO.dirs s1 = ModelIO.dirs s /\
              (forall x, In x t1 -> ModelIO.files x = ModelIO.files s)).
  { destruct ld eqn:Eld.
    - destruct name as [nm|].
      + assert (Hnone : ModelIO.files s (ModelIO.pkl nm) = None).
        { destruct (Hnm nm eq_refl) as [(l & Hl & Hf)|Hf]; auto. exfalso. unfold ld in Eld. rewrite (get_key_in _ _ kw Hn Hl) in Eld.
          cbn in Eld. congruence. }
        assert (Ep : ModelIO.pickle_load P ModelIO.no_faults nm s = ([], (ModelIO.Err (ModelIO.OSErr 2), s))).
        { unfold ModelIO.pickle_load, ModelIO.no_faults, ModelIO.fail, ModelIO.mbind, ModelIO.mget. cbn [ModelIO.f_read].
          unfold ModelIO.mret. rewrite Hnone. reflexivity. }
        unfold ModelIO.mcatch. unfold ModelIO.mbind at 1. rewrite Ep. cbn [ModelIO.is_os].
        destruct (flag (get_key "warn_if_error" kw) false); unfold ModelIO.mwarn, ModelIO.mbind, ModelIO.mret;
          eexists _, _; (split; [reflexivity|]); cbn; repeat split; try (intros ? []); auto.
      + unfold ModelIO.mbind, ModelIO.mwarn, ModelIO.mret. eexists _, _. split; [reflexivity|]. cbn. repeat split; try (intros ? []); auto.
    - eexists _, _. split; [reflexivity|]. repeat split; try (intros ? []); auto. }
  destruct HL as (t1 & s1 & E1 & F1 & D1 & T1). unfold ModelIO.mbind at 1. rewrite E1.
  unfold ModelIO.call, ModelIO.mbind. rewrite Hc. eexists _, _. split; [reflexivity|]. cbn [ModelIO.files ModelIO.dirs].
  repeat split; auto. intros x Hx. rewrite app_nil_r in Hx. auto.
Qed.
Print Assumptions C104_saved_checked.
(** Known keywords: those of the wrapper are taken out, the others reach the
    function. *)
Theorem C104_saved : forall P f now known body kw name save load ow wa s, NoDup (keys kw) ->
    only (wrapper ++ known) kw -> is_value as_name kw "save_name" None name ->
    is_value (fun o => Some (Some (truth o))) kw "save" None save ->
    is_value (fun o => Some (Some (truth o))) kw "load" None load ->
    is_value as_bool kw "overwrite_existing" true ow -> is_value as_bool kw "warn_if_error" false wa ->
    saved_kw P f now (checked known body) kw s =
      ModelIO.decorated P f now (body (rest_of kw)) (ModelIO.mkKwargs name save load ow wa) s.
Proof.
  intros P f now known body kw name save load ow wa s Hn H H1 H2 H3 H4 H5. rewrite (saved_known P f now _ kw name Hn H1).
  rewrite (flag_of kw _ _ _ Hn H4), (flag_of kw _ _ _ Hn H5).
  assert (Es : option_map truth (get_key "save" kw) = save).
  { destruct H2 as [(v & Hi & Ev)|[Hno ->]]; [rewrite (get_key_in _ v kw) by auto; cbn; congruence|rewrite get_key_none; auto]. }
  assert (El : option_map truth (get_key "load" kw) = load).
  { destruct H3 as [(v & Hi & Ev)|[Hno ->]]; [rewrite (get_key_in _ v kw) by auto; cbn; congruence|rewrite get_key_none; auto]. }
  rewrite Es, El. unfold checked.
  replace (fold_left (fun kw k => snd (pop k kw)) known (rest_of kw)) with (@nil (string * obj)); [reflexivity|].
  symmetry. apply no_keys. intros k Hk. apply dels_known in Hk as [Hk Hk']. rewrite <- dels_rest in Hk. repeat (rewrite keys_del in Hk).
  assert (Hin : In k (keys kw)) by tauto. apply H in Hin. apply in_app_or in Hin as [Hin|Hin]; [|contradiction]. cbn in Hin. intuition congruence.
Qed.
Print Assumptions C104_saved.
(** The two decorated functions, with all keywords they know. *)
Theorem C104_tables : forall P now body kw s, NoDup (keys kw) ->
    (forall o, In ("save_name"%string, o) kw -> o = ONone) ->
    (unknown ["save_name"; "save"; "load"; "overwrite_existing"; "warn_if_error"; "thread_pvalue"; "bs_stat_dist"; "parallel"]%string kw ->
       exists t s', saved_kw P ModelIO.no_faults now (checked error_values_keywords body) kw s = (t, (ModelIO.Err (ModelIO.FuncErr 1), s'))) /\
    (unknown ["save_name"; "save"; "load"; "overwrite_existing"; "warn_if_error"; "estimator_names"; "parallel"]%string kw ->
       exists t s', saved_kw P ModelIO.no_faults now (checked estimator_values_keywords body) kw s = (t, (ModelIO.Err (ModelIO.FuncErr 1), s'))) /\
    (only ["thread_pvalue"; "bs_stat_dist"; "parallel"]%string kw -> forall n, checked error_values_keywords body kw n = body kw n) /\
    (only ["estimator_names"; "parallel"]%string kw -> forall n, checked estimator_values_keywords body kw n = body kw n).
Proof.
  intros P now body kw s Hn Hname.
  assert (HC : forall known, unknown (wrapper ++ known) kw ->
             exists t s', saved_kw P ModelIO.no_faults now (checked known body) kw s = (t, (ModelIO.Err (ModelIO.FuncErr 1), s'))).
  { intros known Hu. destruct (C104_saved_checked P now known body kw s Hn Hu) as (t & s' & E & _); [|eauto].
    intros o Ho. left. auto. }
  assert (HK : forall known, only known kw -> forall n, checked known body kw n = body kw n).
  { intros known Hk n. unfold checked.
    replace (fold_left (fun kw k => snd (pop k kw)) known kw) with (@nil (string * obj)); [reflexivity|].
    symmetry. apply no_keys. intros k Hi. apply dels_known in Hi as [Hi Hi']. apply Hi', Hk, Hi. }
  repeat split; [apply (HC error_values_keywords)|apply (HC estimator_values_keywords)|apply HK|apply HK].
Qed.
Print Assumptions C104_tables.

(** ** Cases meeting the hypotheses *)
Ltac known_keywords := let k := fresh in let H := fresh in intros k H; cbn in *; intuition (subst; auto 12).
Ltac distinct := cbn; repeat constructor; cbn; intuition discriminate.
Ltac given_key := left; eexists; split; [cbn; tauto|reflexivity].
Ltac not_given := right; split; [cbn; intuition discriminate|reflexivity].
Example C104_dups_hypotheses :
  let kw := [("dup_warn"%string, OInt 1)] in
  NoDup (keys kw) /\ only ["dup_assert"; "dup_warn"]%string kw /\
  is_value as_bool kw "dup_assert" false false /\ is_value as_bool kw "dup_warn" false true /\
  unknown ["dup_assert"; "dup_warn"]%string (("dup"%string, ONone) :: kw).
Proof.
  split; [distinct|]. split; [known_keywords|]. split; [not_given|]. split; [given_key|].
  exists "dup"%string. split; [cbn; auto|cbn; intuition discriminate].
Qed.
Example C104_bootstrap_hypotheses : forall os,
  @boot_args (script_env []) os [("n_simulate"%string, OInt 2); ("random_seeds"%string, OList [OBool false; OInt 5]); ("flip_skew"%string, ONone)]
    false false 2 [BKeep; BInt 5] /\
  @boot_args (script_env []) os [("n_simulate"%string, OInt 2)] false true 2 [BInt 0; BInt 1].
Proof.
  intros os. split.
  - split; [distinct|]. split; [known_keywords|]. split; [not_given|]. split; [given_key|]. split; [cbn; auto|].
    right. exists [OBool false; OInt 5]. split; [cbn; auto|]. split; auto. split; auto.
    intros [|[|i]] o E; [| |destruct i; discriminate]; injection E as <-; eexists; (split; [reflexivity|constructor]).
  - split; [distinct|]. split; [known_keywords|]. split; [not_given|]. split; [not_given|]. split; [cbn; auto|].
    left. split; [cbn; intuition discriminate|reflexivity].
Qed.
Example C104_dummy_hypotheses :
  let kw := [("ndim"%string, OInt 5); ("seed"%string, OInt 1); ("logl_start"%string, OInt 2)] in
  NoDup (keys kw) /\ only ["seed"; "ndim"; "logl_start"; "logl_range"]%string kw /\
  is_value as_seed kw "seed" None (Some 1) /\ is_value as_is kw "ndim" (OInt 2) (OInt 5) /\
  is_value as_is kw "logl_range" (OInt 1) (OInt 1) /\ is_value (float 8) kw "logl_start" NInf (Fin 16).
Proof.
  split; [distinct|]. split; [known_keywords|]. split; [given_key|]. split; [given_key|]. split; [not_given|given_key].
Qed.
Example C104_write_hypotheses :
  let kw := [("equals"%string, OBool true); ("n_simulate"%string, OInt 7)] in
  NoDup (keys kw) /\
  only ["write_dead"; "write_stats"; "posteriors"; "equals"; "stats_means_errs"; "fmt"; "n_simulate"; "logl_init"]%string kw /\
  is_value as_bool kw "equals" false true /\ is_value index kw "n_simulate" 100 (Z.of_nat 7) /\
  is_value (fun o => Some (Some o)) kw "fmt" None None.
Proof. split; [distinct|]. split; [known_keywords|]. split; [given_key|]. split; [given_key|not_given]. Qed.
(** A saved 1 is returned by a call with a misspelt keyword. *)
Example C104_saved_example :
  let s := ModelIO.mkIO (fun p => if String.eqb p "x.pkl" then Some [1; 0]%nat else None) (fun _ => true) [] 0 in
  let kw := [("save_name"%string, OStr "x"); ("paralel"%string, OBool true)] in
  saved_kw PropIO.toy ModelIO.no_faults "t" (checked error_values_keywords (fun _ _ => ModelIO.Done 7%nat)) kw s = ([], (ModelIO.Done 1%nat, s)) /\
  fst (snd (saved_kw PropIO.toy ModelIO.no_faults "t" (checked error_values_keywords (fun _ _ => ModelIO.Done 7%nat))
              (("load"%string, OBool false) :: kw) s)) = ModelIO.Err (ModelIO.FuncErr 1) /\
  unknown (wrapper ++ error_values_keywords) kw.
Proof.
  split; [reflexivity|]. split; [reflexivity|]. exists "paralel"%string. split; [cbn; auto|cbn; intuition discriminate].
Qed.
