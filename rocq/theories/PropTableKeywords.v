(** C112: keyword arguments of tables and of pickle_save. *)
From Coq Require Import String.
From Verif Require Import Base ModelRun ModelBoot ModelReal ModelStats ModelParallel ModelCalls ModelKeywords ModelPlotKeywords ModelFrames
     ModelTableKeywords Envs ProofBase ProofMonad ProofDynesty PropKeywords PropPlotKeywords.
From Verif Require ModelIO ProofIO PropIO.
Local Open Scope list_scope. Local Open Scope nat_scope. Local Open Scope Z_scope.

Definition summary_keywords : list string := ["true_values"; "include_true_values"; "include_rmse"]%string.
Definition values_keywords : list string :=
  ["n_simulate"; "thread_pvalue"; "bs_stat_dist"; "parallel"; "save_name"; "save"; "load"; "overwrite_existing"; "warn_if_error"]%string.
Definition error_summary_keywords : list string :=
  ["thread_pvalue"; "bs_stat_dist"; "parallel"; "save_name"; "save"; "load"; "overwrite_existing"; "warn_if_error";
   "true_values"; "include_true_values"; "include_rmse"]%string.
Definition gain_keywords : list string := ["true_values"; "include_true_values"; "include_rmse"; "adjust_nsamp"]%string.
Definition save_keywords : list string := ["print_time"; "extension"; "overwrite_existing"]%string.

(** Nothing is to be saved or loaded. *)
Definition no_files_used (kw : dict obj) : Prop :=
  is_value as_is kw "save_name" ONone ONone /\ is_value as_bool kw "save" false false /\ is_value as_bool kw "load" false false.

(** ** Tactics *)
Ltac rest_nil H :=
  match goal with |- context [match ?d with [] => _ | _ :: _ => _ end] => replace d with (@nil (string * obj)) end;
  [|symmetry; apply no_keys; let k := fresh in let Hk := fresh in intros k Hk;
    repeat (rewrite keys_del in Hk); destruct_ands Hk; apply H in Hk; cbn in Hk; intuition congruence].
Ltac rest_cons k H2 :=
  match goal with |- context [match ?d with [] => _ | _ :: _ => _ end] =>
    let Hin := fresh in assert (Hin : In k (keys d)) by in_rest H2; destruct d; [contradiction|] end.
Lemma no_key : forall known k (kw : dict obj), only known kw -> ~ In k known -> has_key k kw = false.
Proof. intros known k kw H Hk. apply has_key_no. intros Hi. apply Hk, H, Hi. Qed.
Ltac unused H := repeat (rewrite (no_key _ _ _ H) by (cbn; intuition congruence)); cbn [existsb orb].

(** ** summary_df *)
(** An unknown keyword is a TypeError, and then true values which are not an array
    (nor None) are an AttributeError. *)
Theorem C112_summary_df : forall py3 arr nrows cols kw, NoDup (keys kw) ->
    (unknown summary_keywords kw -> summary_df_kw py3 arr nrows cols kw = Raise TypeError) /\
    (only summary_keywords kw ->
     (forall v, In ("true_values"%string, v) kw -> v <> ONone -> (forall n, v <> OOther n) ->
        summary_df_kw py3 arr nrows cols kw = Raise AttributeError) /\
     (forall tv it rm,
        is_value (or_none (func arr)) kw "true_values" None tv -> is_value as_bool kw "include_true_values" false it ->
        is_value as_bool kw "include_rmse" false rm ->
        summary_df_kw py3 arr nrows cols kw = summary_frame py3 nrows cols tv it rm)).
Proof.
  intros py3 arr nrows cols kw Hn. unfold summary_df_kw. split.
  - intros (k & H1 & H2). destruct (has_key "df_in"%string kw); auto. pops. rest_cons k H2. reflexivity.
  - intros H. unused H. pops. rest_nil H. unfold array_or_none. split.
    + intros v Hv Hne Ho. rewrite (get_key_in _ _ kw Hn Hv). destruct v; cbn; try congruence; try reflexivity.
      all: try (exfalso; eapply Ho; reflexivity).
    + intros tv it rm H1 H2 H3. rewrite (given_value _ _ _ _ _ _ Hn H1), (flag_of kw _ _ _ Hn H2), (flag_of kw _ _ _ Hn H3). reflexivity.
Qed.
Print Assumptions C112_summary_df.

(** summary_df_from_array: an axis which is neither 0 nor 1 is an AssertionError and a
    wrong number of names a ValueError, also with unknown keywords. *)
Theorem C112_from_array : forall py3 arr a ncols names kw axis, NoDup (keys kw) ->
    ~ In "results_array"%string (keys kw) -> ~ In "names"%string (keys kw) ->
    is_value index kw "axis" 0 axis ->
    let wrong := match axis with 0 => (length names =? ncols)%nat | 1 => (length names =? length a)%nat | _ => true end = false in
    (axis <> 0 -> axis <> 1 -> summary_df_from_array_kw py3 arr a ncols names kw = Raise AssertionError) /\
    (axis = 0 \/ axis = 1 -> wrong -> summary_df_from_array_kw py3 arr a ncols names kw = Raise ValueError) /\
    (axis = 0 \/ axis = 1 -> ~ wrong -> unknown ("axis"%string :: summary_keywords) kw ->
       summary_df_from_array_kw py3 arr a ncols names kw = Raise TypeError) /\
    (only ("axis"%string :: summary_keywords) kw -> forall tv it rm,
       is_value (or_none (func arr)) kw "true_values" None tv -> is_value as_bool kw "include_true_values" false it ->
       is_value as_bool kw "include_rmse" false rm ->
       summary_df_from_array_kw py3 arr a ncols names kw = summary_df_from_array py3 a ncols names axis tv it rm).
Proof.
  intros py3 arr a ncols names kw axis Hn Ha Hb Hx. cbv zeta. unfold summary_df_from_array_kw. cbn [existsb].
  rewrite !has_key_no by auto. cbn [orb]. pops.
  assert (E : axis_of (or_else (get_key "axis"%string kw) (OInt 0)) = Some axis).
  { destruct Hx as [(v & Hi & Ev)|[Hno ->]].
    - rewrite (get_key_in _ _ kw Hn Hi). unfold axis_of. cbn [or_else]. rewrite Ev. destruct v; try discriminate; reflexivity.
    - rewrite get_key_none by auto. reflexivity. }
  rewrite E.
  assert (Hlen : forall (x : list (list fl)), length (rows_of ncols x) = ncols) by (intros x; unfold rows_of; rewrite map_length, seq_length; auto).
  split; [|split; [|split]].
  - intros H0 H1. destruct (Z.eqb_spec axis 0); [congruence|]. destruct (Z.eqb_spec axis 1); [congruence|]. reflexivity.
  - intros [->| ->]; cbn; rewrite ?Hlen; intros ->; reflexivity.
  - intros Hax Hw (k & H1 & H2).
    assert (Eu : forall n cols, summary_df_kw py3 arr n cols (del_key "axis"%string kw) = Raise TypeError).
    { intros n cols. unfold summary_df_kw. destruct (has_key _ _); auto. pops.
      rest_cons k H2. reflexivity. }
    destruct Hax as [->| ->]; cbn in *; rewrite ?Hlen; (destruct (_ =? _)%nat; [apply Eu|congruence]).
  - intros H tv it rm H1 H2 H3. unfold summary_df_from_array.
    assert (Eu : forall n cols, summary_df_kw py3 arr n cols (del_key "axis"%string kw) = summary_frame py3 n cols tv it rm).
    { intros n cols. unfold summary_df_kw. rewrite has_key_no.
      2:{ intros Hi. rewrite keys_del in Hi. destruct Hi as [Hi _]. apply H in Hi. cbn in Hi. intuition congruence. }
      pops. rest_nil H. unfold array_or_none.
      rewrite (given_value _ _ _ _ _ _ Hn H1), (flag_of kw _ _ _ Hn H2), (flag_of kw _ _ _ Hn H3). reflexivity. }
    destruct ((axis =? 0) || (axis =? 1)); [|reflexivity]. cbn [assertb rbind].
    destruct (axis =? 1); rewrite ?Hlen; rewrite Eu; reflexivity.
Qed.
Print Assumptions C112_from_array.

(** summary_df_from_list: arrays of another length than the names are an
    AssertionError and no array at all is a ValueError, also with unknown keywords. *)
Theorem C112_from_list : forall py3 arr values names kw, NoDup (keys kw) ->
    ~ In "results_list"%string (keys kw) -> ~ In "names"%string (keys kw) ->
    ((exists v, In v values /\ length v <> length names) ->
       summary_df_from_list_kw py3 arr values names kw = Raise AssertionError) /\
    (values = [] -> summary_df_from_list_kw py3 arr values names kw = Raise ValueError) /\
    ((forall v, In v values -> length v = length names) -> values <> [] ->
       (unknown summary_keywords kw -> summary_df_from_list_kw py3 arr values names kw = Raise TypeError) /\
       (only summary_keywords kw -> forall tv it rm,
          is_value (or_none (func arr)) kw "true_values" None tv -> is_value as_bool kw "include_true_values" false it ->
          is_value as_bool kw "include_rmse" false rm ->
          summary_df_from_list_kw py3 arr values names kw =
            summary_frame py3 (length values) (map (fun j => map (fun v => nth j v None) values) (seq 0 (length names))) tv it rm)).
Proof.
  intros py3 arr values names kw Hn Ha Hb. unfold summary_df_from_list_kw. cbn [existsb]. rewrite !has_key_no by auto. cbn [orb].
  split; [|split].
  - intros (v & Hv & Hl).
    assert (E : mapM (fun v => assertb (length v =? length names)%nat) values = Raise AssertionError).
    { clear - Hv Hl. induction values as [|x t IH]; [contradiction|]. cbn [mapM]. destruct (Nat.eqb_spec (length x) (length names)) as [Ex|]; [|reflexivity].
      cbn [assertb rbind]. destruct Hv as [->|Hv]; [congruence|]. rewrite IH by auto. reflexivity. }
    rewrite E. reflexivity.
  - intros ->. reflexivity.
  - intros Hl Hne.
    assert (E : exists l, mapM (fun v => assertb (length v =? length names)%nat) values = Ok l).
    { clear - Hl. induction values as [|x t IH]; [cbn; eauto|]. cbn [mapM]. rewrite (Hl x), Nat.eqb_refl by (left; auto). cbn [assertb rbind].
      destruct IH as (l & ->); [intros; apply Hl; right; auto|]. cbn. eauto. }
    destruct E as (l & ->). cbn [rbind]. destruct values as [|x t]; [congruence|].
    destruct (C112_summary_df py3 arr (length (x :: t)) (rows_of (length names) (x :: t)) kw Hn) as [U K]. split; auto.
    intros H tv it rm H1 H2 H3. destruct (K H) as [_ K']. rewrite (K' tv it rm); auto.
Qed.
Print Assumptions C112_from_list.

(** ** summary_df_from_multi *)
Definition strings (o : obj) : option (list string) := list_of (fun x => match x with OStr s => Some s | _ => None end) o.
Lemma group_summary : forall py3 arr n cols kw tv rm, NoDup (keys kw) -> only ("inds_to_keep"%string :: summary_keywords) kw ->
    is_value (or_none (func arr)) kw "true_values" None tv -> is_value as_bool kw "include_rmse" false rm ->
    summary_df_kw py3 arr n cols (("include_true_values"%string, OBool false) ::
                                  del_key "include_true_values"%string (del_key "inds_to_keep"%string kw)) = summary_frame py3 n cols tv false rm.
Proof.
  intros py3 arr n cols kw tv rm Hn H H1 H2. unfold summary_df_kw. rewrite has_key_no.
  2:{ cbn. intros [Hi|Hi]; [discriminate|]. fold (keys (del_key "include_true_values"%string (del_key "inds_to_keep"%string kw))) in Hi.
      rewrite !keys_del in Hi. destruct_ands Hi. apply H in Hi. cbn in Hi. intuition congruence. }
  unfold pop. cbn [fst snd]. repeat (rewrite get_del by discriminate).
  change (get_key "true_values"%string (("include_true_values"%string, OBool false) :: ?t)) with (get_key "true_values"%string t).
  cbn [get_key String.eqb Ascii.eqb Bool.eqb]. repeat (rewrite get_del by discriminate).
  match goal with |- context [match ?d with [] => _ | _ :: _ => _ end] => replace d with (@nil (string * obj)) end.
  2:{ symmetry. apply no_keys. intros k Hk. repeat (rewrite keys_del in Hk). destruct_ands Hk.
      destruct Hk as [Hk|Hk]; [cbn in Hk; congruence|]. fold (keys (del_key "include_true_values"%string (del_key "inds_to_keep"%string kw))) in Hk.
      rewrite !keys_del in Hk. destruct_ands Hk. apply H in Hk. cbn in Hk. intuition congruence. }
  unfold array_or_none. rewrite (given_value _ _ _ _ _ _ Hn H1), (flag_of kw _ _ _ Hn H2). reflexivity.
Qed.
Lemma mapM_some : forall A B (f : A -> res B) l e, l <> [] -> (forall x, In x l -> f x = Raise e) -> mapM f l = Raise e.
Proof. intros A B f [|x l] e Hne H; [congruence|]. cbn [mapM]. rewrite (H x) by (left; auto). reflexivity. Qed.
Lemma mapM_ext' : forall A B (f g : A -> res B) l, (forall x, f x = g x) -> mapM f l = mapM g l.
Proof. intros A B f g l H. induction l as [|x l IH]; auto. cbn [mapM]. rewrite H, IH. reflexivity. Qed.
Lemma levels_ok : forall names keep, (forall k, In k keep -> In k names) -> exists pos, mapM (level names) keep = Ok pos.
Proof.
  intros names keep H. induction keep as [|k t IH]; [cbn; eauto|]. cbn [mapM]. unfold level at 1.
  replace (existsb (String.eqb k) names) with true.
  2:{ symmetry. apply existsb_exists. exists k. split; [apply H; left; auto|apply String.eqb_refl]. }
  cbn [rbind]. destruct IH as (pos & ->); [intros; apply H; right; auto|]. cbn. eauto.
Qed.
Lemma sorted_nonempty : forall V (le : list string -> list string -> bool) (l : list (list string * V)), l <> [] -> sort_rows le l <> [].
Proof.
  intros V le [|x l] H; [congruence|]. cbn. intros E. assert (Hi : forall p (d : list (list string * V)), insert_row le p d <> []).
  { intros p [|q d]; cbn; [discriminate|]. destruct (le _ _); discriminate. }
  apply (Hi _ _ E).
Qed.
(** With unknown keywords: TypeError, if there is a row and the levels exist.
    With known ones it is the function of the arguments; true_values goes both to
    the groups and to the last row, include_true_values to the last row only. *)
Theorem C112_from_multi : forall py3 arr names ncols df kw ik, NoDup (keys kw) -> ~ In "multi_in"%string (keys kw) ->
    is_value (or_none strings) kw "inds_to_keep" None ik ->
    let keep := match ik with Some k => k | None => removelast names end in
    (unknown ("inds_to_keep"%string :: summary_keywords) kw -> df <> [] -> keep <> [] -> (forall k, In k keep -> In k names) ->
       summary_df_from_multi_kw py3 arr names ncols df kw = Raise TypeError) /\
    (only ("inds_to_keep"%string :: summary_keywords) kw -> forall tv it rm,
       is_value (or_none (func arr)) kw "true_values" None tv -> is_value as_bool kw "include_true_values" false it ->
       is_value as_bool kw "include_rmse" false rm ->
       summary_df_from_multi_kw py3 arr names ncols df kw = summary_df_from_multi py3 names ncols df ik tv it rm).
Proof.
  intros py3 arr names ncols df kw ik Hn Hb Hk keep. unfold summary_df_from_multi_kw. rewrite has_key_no by auto. pops.
  assert (E : keep_of (get_key "inds_to_keep"%string kw) = Some ik) by (apply given_value; auto).
  rewrite E. fold keep. split.
  - intros (k & H1 & H2) Hdf Hke Hle. destruct (levels_ok names keep Hle) as (pos & Ep). destruct keep as [|k0 keep0] eqn:Ek; [congruence|].
    rewrite Ep. cbn [rbind]. rewrite (mapM_some _ _ _ _ TypeError); [reflexivity| |].
    + intros En. apply map_eq_nil in En. revert En. apply sorted_nonempty. intros En. apply map_eq_nil in En.
      destruct df as [|r df]; [congruence|]. cbn [map] in En.
      set (key0 := map (fun i => nth i (fst r) ""%string) pos) in *.
      assert (Hi : In key0 (nodup (list_eq_dec string_dec) (key0 :: map (fun r => map (fun i => nth i (fst r) ""%string) pos) df)))
        by (apply nodup_In; left; auto).
      rewrite En in Hi. contradiction.
    + intros x _. unfold summary_df_kw. destruct (has_key _ _); auto. unfold pop. cbn [fst snd].
      match goal with |- context [match ?d with [] => _ | _ :: _ => _ end] => assert (Hin : In k (keys d)) end.
      { repeat (rewrite keys_del). repeat split; try (intros ->; apply H2; cbn; tauto). right.
        change (In k (keys (del_key "include_true_values"%string (del_key "inds_to_keep"%string kw)))). in_rest H2. }
      match goal with |- context [match ?d with [] => _ | _ :: _ => _ end] => destruct d; [contradiction|reflexivity] end.
  - intros H tv it rm H1 H2 H3. unfold summary_df_from_multi. fold keep. destruct keep as [|k0 keep0] eqn:Ek; [reflexivity|].
    destruct (mapM (level names) (k0 :: keep0)) as [pos|e]; [|reflexivity]. cbn [rbind].
    match goal with |- (let! _ := mapM ?f ?l in _) = (let! _ := mapM ?g ?l in _) => rewrite (mapM_ext' _ _ f g l) end.
    2:{ intros x. rewrite (group_summary py3 arr _ _ kw tv rm) by auto. reflexivity. }
    rewrite (flag_of kw _ _ _ Hn H2). unfold array_or_none. rewrite (given_value _ _ _ _ _ _ Hn H1).
    destruct it, tv; reflexivity.
Qed.
Print Assumptions C112_from_multi.

(** ** error_values_summary *)
Theorem C112_error_values_summary : forall E norm py3 arr ncols df kw (w : world E), NoDup (keys kw) ->
    is_value (or_none strings) kw "inds_to_keep" None None \/ is_value (or_none strings) kw "inds_to_keep" None (Some ["calculation type"%string]) ->
    (unknown ("inds_to_keep"%string :: summary_keywords) kw -> df <> [] ->
       error_values_summary_kw norm py3 arr ncols df kw w = (Raise TypeError, w)) /\
    (only ("inds_to_keep"%string :: summary_keywords) kw -> forall tv it rm,
       is_value (or_none (func arr)) kw "true_values" None tv -> is_value as_bool kw "include_true_values" false it ->
       is_value as_bool kw "include_rmse" false rm ->
       error_values_summary_kw norm py3 arr ncols df kw w = error_values_frame norm py3 ncols df tv it rm w).
Proof.
  intros E norm py3 arr ncols df kw w Hn Hk.
  assert (Ek : exists ik, keep_of (get_key "inds_to_keep"%string kw) = Some ik /\ is_value (or_none strings) kw "inds_to_keep" None ik /\
            (ik = None \/ ik = Some ["calculation type"%string])).
  { destruct Hk as [Hk|Hk]; eexists; (split; [apply (given_value _ _ _ _ _ _ Hn Hk)|]); auto. }
  destruct Ek as (ik & Ek & Hv & Hik). split.
  - intros (k & H1 & H2) Hdf. unfold error_values_summary_kw. bound. rewrite Ek.
    assert (Et : summary_df_from_multi_kw py3 arr [calculation_type; "run"%string] ncols df kw = Raise TypeError).
    { destruct (in_dec string_dec "multi_in"%string (keys kw)) as [Hm|Hm].
      - unfold summary_df_from_multi_kw. replace (has_key "multi_in"%string kw) with true; auto. symmetry.
        apply in_map_iff in Hm as ([j v] & Ej & Hi). cbn in Ej. subst j. unfold has_key. apply existsb_exists. exists ("multi_in"%string, v). split; auto.
      - apply (proj1 (C112_from_multi py3 arr [calculation_type; "run"%string] ncols df kw ik Hn Hm Hv)); auto; [exists k; auto| |];
          destruct Hik as [->| ->]; cbn; try discriminate; intuition. }
    rewrite Et. destruct Hik as [->| ->]; reflexivity.
  - intros H tv it rm H1 H2 H3. unfold error_values_summary_kw. unbound H. rewrite Ek.
    assert (Hm : ~ In "multi_in"%string (keys kw)) by (intros Hi; apply H in Hi; cbn in Hi; intuition congruence).
    rewrite (proj2 (C112_from_multi py3 arr [calculation_type; "run"%string] ncols df kw ik Hn Hm Hv) H tv it rm H1 H2 H3).
    unfold error_values_frame. destruct Hik as [->| ->]; reflexivity.
Qed.
Print Assumptions C112_error_values_summary.

(** ** run_list_error_values and run_list_error_summary *)
Lemma files_unused : forall kw, NoDup (keys kw) -> no_files_used kw ->
    negb match get_key "save_name"%string kw with None | Some ONone => true | _ => false end ||
    flag (get_key "save"%string kw) false || flag (get_key "load"%string kw) false = false.
Proof.
  intros kw Hn (H1 & H2 & H3). rewrite (flag_of kw _ _ _ Hn H2), (flag_of kw _ _ _ Hn H3). destruct H1 as [(v & Hi & Ev)|[Hno _]].
  - rewrite (get_key_in _ _ kw Hn Hi). injection Ev as ->. reflexivity.
  - rewrite get_key_none by auto. reflexivity.
Qed.
Theorem C112_run_list_error_values : forall E q1 q2 q3 srt dist l nnames runs kw (w : world E), NoDup (keys kw) -> no_files_used kw ->
    (unknown values_keywords kw -> run_list_error_values_kw q1 q2 q3 srt dist l nnames runs kw w = (Raise TypeError, w)) /\
    (only values_keywords kw -> length l <> nnames ->
       run_list_error_values_kw q1 q2 q3 srt dist l nnames runs kw w = (Raise AssertionError, w)) /\
    (only values_keywords kw -> length l = nnames -> forall n tp bd,
       is_value count kw "n_simulate" 100%nat n -> is_value as_bool kw "thread_pvalue" false tp -> is_value as_bool kw "bs_stat_dist" false bd ->
       (is_value as_bool kw "parallel" true true ->
          run_list_error_values_kw q1 q2 q3 srt dist l nnames runs kw w =
            run_list_error_values (Some q1) (Some q2) (Some q3) srt dist l n tp bd runs w) /\
       (is_value as_bool kw "parallel" true false ->
          run_list_error_values_kw q1 q2 q3 srt dist l nnames runs kw w =
            run_list_error_values None None None srt dist l n tp bd runs w)).
Proof.
  intros E q1 q2 q3 srt dist l nnames runs kw w Hn Hf. unfold run_list_error_values_kw. pops. rewrite (files_unused kw Hn Hf).
  split; [|split].
  - intros (k & H1 & H2). bound. left_over' k H1 H2. reflexivity.
  - intros H Hl. unbound H. nothing_left' H. unfold wbind at 1. cbn [no_more]. unfold wret at 1.
    destruct (Nat.eqb_spec (length l) nnames); [congruence|]. reflexivity.
  - intros H Hl n tp bd H1 H2 H3. split; intros H4; unbound H; nothing_left' H; unfold wbind at 1; cbn [no_more]; unfold wret at 1;
      rewrite (proj2 (Nat.eqb_eq _ _) Hl), (given_value _ _ _ _ _ _ Hn H1), (flag_of kw _ _ _ Hn H2), (flag_of kw _ _ _ Hn H3),
        (flag_of kw _ _ _ Hn H4); reflexivity.
Qed.
Print Assumptions C112_run_list_error_values.
Lemma value_rest : forall A (conv : obj -> option A) k v j kw d a, j <> k -> is_value conv kw j d a -> is_value conv ((k, v) :: kw) j d a.
Proof.
  intros A conv k v j kw d a Hne [(u & Hi & Eu)|[Hno ->]]; [left; exists u; split; auto; right; auto|].
  right. split; auto. intros [Hj|Hj]; [cbn in Hj; congruence|auto].
Qed.
Lemma in_del : forall k v j (kw : dict obj), k <> j -> In (k, v) kw -> In (k, v) (del_key j kw).
Proof.
  intros k v j kw Hne. induction kw as [|[i u] t IH]; intros Hi; [contradiction|]. cbn.
  destruct (String.eqb_spec j i) as [->|Hji]; cbn; destruct Hi as [Hi|Hi]; try (injection Hi as -> ->); try congruence; auto.
Qed.
Lemma value_del : forall A (conv : obj -> option A) k j kw d a, j <> k -> is_value conv kw j d a -> is_value conv (del_key k kw) j d a.
Proof.
  intros A conv k j kw d a Hne [(u & Hi & Eu)|[Hno ->]]; [left; exists u; split; auto; apply in_del; auto|].
  right. split; auto. intros Hj. rewrite keys_del in Hj. apply Hno. tauto.
Qed.
Lemma del_sub : forall k (kw : dict obj) p, In p (del_key k kw) -> In p kw.
Proof.
  intros k kw p. induction kw as [|[i u] t IH]; cbn; [tauto|]. destruct (String.eqb k i); cbn; intuition.
Qed.
Lemma nodup_del : forall k (kw : dict obj), NoDup (keys kw) -> NoDup (keys (del_key k kw)).
Proof.
  intros k kw. induction kw as [|[i u] t IH]; intros Hn; cbn; [constructor|]. inversion Hn; subst.
  destruct (String.eqb k i); cbn; auto. constructor; auto. intros Hi. apply H1. apply in_map_iff in Hi as (p & Ep & Hi).
  apply in_map_iff. exists p. split; auto. eapply del_sub; eauto.
Qed.
(** run_list_error_summary takes out the keywords of the summary and passes on the
    others; an unknown one is noticed before anything is calculated. *)
Theorem C112_run_list_error_summary : forall E norm py3 arr q1 q2 q3 srt dist l nnames labels runs n_simulate kw (w : world E),
    NoDup (keys kw) -> no_files_used kw ->
    (unknown error_summary_keywords kw ->
       run_list_error_summary_kw norm py3 arr q1 q2 q3 srt dist l nnames labels runs n_simulate kw w = (Raise TypeError, w)) /\
    (only error_summary_keywords kw -> length l <> nnames ->
       run_list_error_summary_kw norm py3 arr q1 q2 q3 srt dist l nnames labels runs n_simulate kw w = (Raise AssertionError, w)) /\
    (only error_summary_keywords kw -> length l = nnames -> forall z tp bd tv it rm,
       index n_simulate = Some z -> is_value as_bool kw "thread_pvalue" false tp -> is_value as_bool kw "bs_stat_dist" false bd ->
       is_value (or_none (func arr)) kw "true_values" None tv -> is_value as_bool kw "include_true_values" false it ->
       is_value as_bool kw "include_rmse" false rm ->
       (is_value as_bool kw "parallel" true true ->
          run_list_error_summary_kw norm py3 arr q1 q2 q3 srt dist l nnames labels runs n_simulate kw w =
            run_list_error_frame norm py3 (Some q1) (Some q2) (Some q3) srt dist l (Z.to_nat z) tp bd labels tv it rm runs w) /\
       (is_value as_bool kw "parallel" true false ->
          run_list_error_summary_kw norm py3 arr q1 q2 q3 srt dist l nnames labels runs n_simulate kw w =
            run_list_error_frame norm py3 None None None srt dist l (Z.to_nat z) tp bd labels tv it rm runs w)).
Proof.
  intros E norm py3 arr q1 q2 q3 srt dist l nnames labels runs n_simulate kw w Hn Hf.
  set (kw1 := del_key "include_rmse"%string (del_key "include_true_values"%string (del_key "true_values"%string kw))).
  assert (Hno : forall known, ~ In "n_simulate"%string known -> only known kw -> ~ In "n_simulate"%string (keys kw)) by (intros known Hk H Hi; apply Hk, H, Hi).
  assert (Hn1 : ~ In "n_simulate"%string (keys kw) -> NoDup (keys (("n_simulate"%string, n_simulate) :: kw1))).
  { intros Hi. cbn. constructor.
    - intros Hj. change (In "n_simulate"%string (keys kw1)) in Hj. unfold kw1 in Hj. rewrite !keys_del in Hj. tauto.
    - unfold kw1. repeat apply nodup_del. auto. }
  assert (Hv : forall A (conv : obj -> option A) j d a, j <> "n_simulate"%string -> j <> "include_rmse"%string -> j <> "include_true_values"%string ->
             j <> "true_values"%string -> is_value conv kw j d a -> is_value conv (("n_simulate"%string, n_simulate) :: kw1) j d a).
  { intros A conv j d a J1 J2 J3 J4 Hj. apply value_rest; auto. unfold kw1. repeat apply value_del; auto. }
  assert (Hf1 : no_files_used (("n_simulate"%string, n_simulate) :: kw1)).
  { destruct Hf as (F1 & F2 & F3). repeat split; apply Hv; auto; discriminate. }
  assert (Ho1 : only error_summary_keywords kw -> only values_keywords (("n_simulate"%string, n_simulate) :: kw1)).
  { intros H k [Hk|Hk]; [cbn in *; auto|]. change (In k (keys kw1)) in Hk. unfold kw1 in Hk. rewrite !keys_del in Hk. destruct_ands Hk.
    apply H in Hk. cbn in *. intuition congruence. }
  unfold run_list_error_summary_kw. split; [|split].
  - intros (k & H1 & H2).
    destruct (in_dec string_dec "n_simulate"%string (keys kw)) as [Hi|Hi].
    { match goal with |- context [wbind (bind ?names ?kw) _ ?w] => destruct (bind_cases _ names kw w) as [B|B]; unfold wbind at 1; rewrite B end; [|reflexivity].
      exfalso. revert B. unfold bind. replace (existsb (fun k => has_key k kw) ["run_list"; "estimator_list"; "estimator_names"; "n_simulate"]%string) with true; [unfold wraise; intros B; discriminate B|].
      symmetry. apply existsb_exists. exists "n_simulate"%string. split; [cbn; auto|]. apply in_map_iff in Hi as ([j v] & Ej & Hi). cbn in Ej. subst j.
      apply existsb_exists. exists ("n_simulate"%string, v). split; auto. }
    bound. pops. fold kw1.
    destruct (C112_run_list_error_values E q1 q2 q3 srt dist l nnames runs _ w (Hn1 Hi) Hf1) as [U _].
    unfold wbind at 1. rewrite U; [reflexivity|]. exists k. split.
    + right. change (In k (keys kw1)). unfold kw1. in_rest H2.
    + intros Hk. destruct Hk as [<-|Hk]; [auto|]. apply H2. cbn in *. tauto.
  - intros H Hl. unbound H. pops. fold kw1.
    assert (Hi : ~ In "n_simulate"%string (keys kw)) by (apply (Hno error_summary_keywords); auto; cbn; intuition discriminate).
    destruct (C112_run_list_error_values E q1 q2 q3 srt dist l nnames runs _ w (Hn1 Hi) Hf1) as (_ & A & _).
    unfold wbind at 1. rewrite A; auto.
  - intros H Hl z tp bd tv it rm Hz H2 H3 H4 H5 H6.
    assert (Hi : ~ In "n_simulate"%string (keys kw)) by (apply (Hno error_summary_keywords); auto; cbn; intuition discriminate).
    destruct (C112_run_list_error_values E q1 q2 q3 srt dist l nnames runs _ w (Hn1 Hi) Hf1) as (_ & _ & A).
    specialize (A (Ho1 H) Hl (Z.to_nat z) tp bd).
    destruct A as [A1 A2]; [left; exists n_simulate; split; [left; auto|unfold count; rewrite Hz; auto]|apply Hv; auto; discriminate|apply Hv; auto; discriminate|].
    assert (Es : forall df w, error_values_summary_kw norm py3 arr (length l) df
              [("true_values", or_else (get_key "true_values" kw) ONone); ("include_true_values", or_else (get_key "include_true_values" kw) (OBool false));
               ("include_rmse", or_else (get_key "include_rmse" kw) (OBool false))]%string w = error_values_frame norm py3 (length l) df tv it rm w).
    { intros df w'.
      match goal with |- error_values_summary_kw _ _ _ _ _ ?k _ = _ =>
        assert (Hd : NoDup (keys k)) by distinct;
        assert (Hk : is_value (or_none strings) k "inds_to_keep" None None) by not_given end.
      apply (proj2 (C112_error_values_summary E norm py3 arr (length l) df _ w' Hd (or_introl Hk))); clear Hd Hk.
      - intros k Hk. cbn in *. intuition.
      - left. eexists. split; [left; reflexivity|]. pose proof (given_value _ _ _ _ _ _ Hn H4) as G. destruct (get_key "true_values"%string kw); auto.
      - left. eexists. split; [right; left; reflexivity|]. pose proof (flag_of kw _ _ _ Hn H5) as G. unfold as_bool. f_equal. destruct (get_key "include_true_values"%string kw); auto.
      - left. eexists. split; [right; right; left; reflexivity|]. pose proof (flag_of kw _ _ _ Hn H6) as G. unfold as_bool. f_equal. destruct (get_key "include_rmse"%string kw); auto. }
    split; intros H7; unbound H; pops; fold kw1; unfold run_list_error_frame; unfold wbind at 1.
    + rewrite A1 by (apply Hv; auto; discriminate). clear A1 A2. unfold wbind at 1. destruct (run_list_error_values _ _ _ _ _ _ _ _ _ _ _) as [[f|e] w']; [rewrite Es; reflexivity|reflexivity].
    + rewrite A2 by (apply Hv; auto; discriminate). clear A1 A2. unfold wbind at 1. destruct (run_list_error_values _ _ _ _ _ _ _ _ _ _ _) as [[f|e] w']; [rewrite Es; reflexivity|reflexivity].
Qed.
Print Assumptions C112_run_list_error_summary.

(** ** efficiency_gain_df *)
Theorem C112_efficiency_gain_df : forall py3 arr names methods nest kw, NoDup (keys kw) ->
    (unknown gain_keywords kw -> efficiency_gain_df_kw py3 arr names methods nest kw = Raise TypeError) /\
    (only gain_keywords kw ->
     (forall v, In ("adjust_nsamp"%string, v) kw -> v <> ONone -> (forall n, v <> OOther n) ->
        efficiency_gain_df_kw py3 arr names methods nest kw = Raise AttributeError) /\
     (forall tv it rm an,
        is_value (or_none (func arr)) kw "true_values" None tv -> is_value as_bool kw "include_true_values" false it ->
        is_value as_bool kw "include_rmse" false rm -> is_value (or_none (func arr)) kw "adjust_nsamp" None an ->
        efficiency_gain_df_kw py3 arr names methods nest kw = efficiency_gain_frame py3 names methods nest tv it rm an)).
Proof.
  intros py3 arr names methods nest kw Hn. unfold efficiency_gain_df_kw. split.
  - intros (k & H1 & H2). destruct (existsb _ _); auto. pops. rest_cons k H2. reflexivity.
  - intros H. cbn [existsb]. unused H. pops. rest_nil H. unfold array_or_none. split.
    + intros v Hv Hne Ho. rewrite (get_key_in _ _ kw Hn Hv). destruct v; cbn; try congruence; try reflexivity.
      all: try (exfalso; eapply Ho; reflexivity).
    + intros tv it rm an H1 H2 H3 H4.
      rewrite (given_value _ _ _ _ _ _ Hn H1), (flag_of kw _ _ _ Hn H2), (flag_of kw _ _ _ Hn H3), (given_value _ _ _ _ _ _ Hn H4). reflexivity.
Qed.
Print Assumptions C112_efficiency_gain_df.

(** Objects without a value as axis: AssertionError. *)
Theorem C112_axis : forall py3 arr a ncols names kw v, NoDup (keys kw) ->
    ~ In "results_array"%string (keys kw) -> ~ In "names"%string (keys kw) ->
    In ("axis"%string, v) kw -> (v = ONone \/ (exists s, v = OStr s) \/ exists l, v = OList l) ->
    summary_df_from_array_kw py3 arr a ncols names kw = Raise AssertionError.
Proof.
  intros py3 arr a ncols names kw v Hn Ha Hb Hi Hv. unfold summary_df_from_array_kw. cbn [existsb]. rewrite !has_key_no by auto. cbn [orb]. pops.
  rewrite (get_key_in _ _ kw Hn Hi). destruct Hv as [->|[(s & ->)|(l & ->)]]; reflexivity.
Qed.
Print Assumptions C112_axis.

(** ** pickle_save *)
Section Pickle.
  Import ModelIO ProofIO.
  Lemma save_default : forall P f now v name ow, pickle_save_ext P f now v name ".pkl" ow = pickle_save P f now v name ow.
  Proof. reflexivity. Qed.
  Lemma load_default : forall P f name, pickle_load_ext P f name ".pkl" = pickle_load P f name.
  Proof. reflexivity. Qed.
End Pickle.
(** Unknown keywords and extensions which are not strings are a TypeError without any
    change of the file system; without an extension the functions are those of
    ModelIO.v, with '.pkl'. *)
Theorem C112_pickle_save : forall P f now v name kw s, NoDup (keys kw) ->
    (unknown save_keywords kw -> pickle_save_kw P f now v name kw s = ([], (ModelIO.Err (ModelIO.FuncErr 1), s))) /\
    (forall o, In ("extension"%string, o) kw -> (forall t, o <> OStr t) -> 
       pickle_save_kw P f now v name kw s = ([], (ModelIO.Err (ModelIO.FuncErr 1), s))) /\
    (only save_keywords kw -> forall ow, is_value as_bool kw "overwrite_existing" true ow ->
       (~ In "extension"%string (keys kw) -> pickle_save_kw P f now v name kw s = ModelIO.pickle_save P f now v name ow s)).
Proof.
  intros P f now v name kw s Hn. unfold pickle_save_kw. pops. split; [|split].
  - intros (k & H1 & H2). destruct (existsb _ _); auto.
    match goal with |- context [match ?d with [] => _ | _ :: _ => _ end] => assert (Hin : In k (keys d)) by in_rest H2; destruct d; [contradiction|] end.
    reflexivity.
  - intros o Ho Hs. destruct (existsb _ _); auto. rewrite (get_key_in _ _ kw Hn Ho). cbn [or_else].
    destruct (del_key _ _); auto. destruct o; auto. exfalso. eapply Hs. reflexivity.
  - intros H ow H1 He.
    replace (existsb (fun k => has_key k (del_key "print_time"%string kw)) ["data"; "name"]%string) with false.
    2:{ symmetry. cbn [existsb]. rewrite !has_key_no; auto; intros Hi; rewrite keys_del in Hi; destruct Hi as [Hi _]; apply H in Hi; cbn in Hi; intuition congruence. }
    match goal with |- context [match ?d with [] => _ | _ :: _ => _ end] => replace d with (@nil (string * obj)) end.
    2:{ symmetry. apply no_keys. intros k Hk. repeat (rewrite keys_del in Hk). destruct_ands Hk. apply H in Hk. cbn in Hk. intuition congruence. }
    rewrite (get_key_none _ _ He). cbn [or_else]. rewrite (flag_of kw _ _ _ Hn H1), save_default. reflexivity.
Qed.
Print Assumptions C112_pickle_save.

(** With any extension: what was saved without error and without warning is in the
    file with this extension, or in the one with the time appended, all other files
    are as before, and pickle_load with the same extension returns the object. *)
Theorem C112_extension : forall P f now v name ext kw s t s', NoDup (keys kw) -> only save_keywords kw ->
    In ("extension"%string, OStr ext) kw ->
    pickle_save_kw P f now v name kw s = (t, (ModelIO.Done tt, s')) -> ModelIO.io_warn s' = ModelIO.io_warn s ->
    forall ow, is_value as_bool kw "overwrite_existing" true ow ->
    (ow = true \/ ModelIO.files s (name ++ ext)%string = None ->
       ModelIO.files s' (name ++ ext)%string = Some (fst (ModelIO.dump P v)) /\
       (forall q, q <> (name ++ ext)%string -> ModelIO.files s' q = ModelIO.files s q) /\
       (forall f', ModelIO.f_read f' = None ->
          pickle_load_kw P f' name [("extension"%string, OStr ext)] s' = ([], (ModelIO.Done v, s')))) /\
    (ow = false -> ModelIO.files s (name ++ ext)%string <> None ->
       ModelIO.files s' (name ++ "_" ++ now ++ ext)%string = Some (fst (ModelIO.dump P v)) /\
       (forall q, q <> (name ++ "_" ++ now ++ ext)%string -> ModelIO.files s' q = ModelIO.files s q)).
Proof.
  intros P f now v name ext kw s t s' Hn H He Hs Hw ow Ho. unfold pickle_save_kw in Hs. revert Hs. pops.
  replace (existsb (fun k => has_key k (del_key "print_time"%string kw)) ["data"; "name"]%string) with false.
  2:{ symmetry. cbn [existsb]. rewrite !has_key_no; auto; intros Hi; rewrite keys_del in Hi; destruct Hi as [Hi _]; apply H in Hi; cbn in Hi; intuition congruence. }
  match goal with |- context [match ?d with [] => _ | _ :: _ => _ end] => replace d with (@nil (string * obj)) end.
  2:{ symmetry. apply no_keys. intros k Hk. repeat (rewrite keys_del in Hk). destruct_ands Hk. apply H in Hk. cbn in Hk. intuition congruence. }
  rewrite (get_key_in _ _ kw Hn He). cbn [or_else]. rewrite (flag_of kw _ _ _ Hn Ho). intros Hs.
  set (file := if match ModelIO.files s (name ++ ext)%string with Some _ => true | None => false end && negb ow
               then (name ++ "_" ++ now ++ ext)%string else (name ++ ext)%string).
  assert (G : ModelIO.files s' file = Some (fst (ModelIO.dump P v)) /\ snd (ModelIO.dump P v) = None /\
              (forall q, q <> file -> ModelIO.files s' q = ModelIO.files s q)).
  { unfold pickle_save_ext in Hs. unfold ModelIO.mbind at 1, ModelIO.mget in Hs. cbv beta iota zeta in Hs. fold file in Hs.
    set (wr := ModelIO.mcatch _ _ _) in Hs.
    assert (S0 : exists s0 t0, wr s0 = (t0, (ModelIO.Done tt, s')) /\ ModelIO.io_warn s0 = ModelIO.io_warn s /\ (forall q, ModelIO.files s0 q = ModelIO.files s q)).
    { unfold ModelIO.mbind in Hs. destruct (negb _ && negb _).
      - destruct (ModelIO.fail (ModelIO.f_makedirs f) s) as [t1 [[[]|e] s1]] eqn:Ef; unfold ModelIO.fail, ModelIO.mraise, ModelIO.mret in Ef;
          destruct (ModelIO.f_makedirs f); try discriminate; injection Ef as <- <- <- || injection Ef as <- <-; try discriminate.
        unfold ModelIO.step in Hs. cbn [app] in Hs.
        match type of Hs with context [wr ?x] => destruct (wr x) as [t2 r] eqn:Ew; exists x, t2 end.
        rewrite Ew. inversion Hs; subst. repeat split; auto.
      - unfold ModelIO.mret in Hs. destruct (wr s) as [t2 r] eqn:Ew. exists s, t2. rewrite Ew. inversion Hs; subst. repeat split; auto. }
    destruct S0 as (s0 & t0 & Es & W0 & F0).
    pose proof (ProofIO.write_file_ends f file (fst (ModelIO.dump P v)) (snd (ModelIO.dump P v)) s0) as (K1 & K2 & K3).
    pose proof (ProofIO.keeps_write_file f file (fst (ModelIO.dump P v)) (snd (ModelIO.dump P v)) s0) as K4.
    unfold wr, ModelIO.mcatch in Es. unfold ProofIO.final, ProofIO.result in *.
    destruct (ModelIO.write_file f file (fst (ModelIO.dump P v)) (snd (ModelIO.dump P v)) s0) as [t1 [[[]|e] s1]] eqn:Ew; cbn [fst snd] in *.
    - injection Es as <- <-. destruct K3 as (K3 & _ & _ & K5 & _). split; auto. split; auto. intros q Hq. rewrite <- F0.
      apply (K4 s1); auto. unfold ProofIO.states, ProofIO.final. rewrite Ew. right. apply in_or_app. right. left. reflexivity.
    - exfalso. destruct (ModelIO.caught_saving e); [|discriminate]. unfold ModelIO.mwarn in Es. injection Es as _ <-. cbn in Hw.
      rewrite K1, W0 in Hw. apply (f_equal (@List.length _)) in Hw. cbn in Hw. lia. }
  destruct G as (G1 & G2 & G3). split.
  - intros Hc. assert (Ef : file = (name ++ ext)%string).
    { unfold file. destruct Hc as [->|Hc]; [rewrite andb_false_r; auto|rewrite Hc; auto]. }
    rewrite Ef in *. split; auto. split; auto. intros f' Hr. unfold pickle_load_kw. cbn. unfold pickle_load_ext. rewrite Hr.
    unfold ModelIO.mbind, ModelIO.fail, ModelIO.mret, ModelIO.mget. cbn. rewrite G1, (ModelIO.load_dump P v G2). reflexivity.
  - intros -> Hc. assert (Ef : file = (name ++ "_" ++ now ++ ext)%string).
    { unfold file. destruct (ModelIO.files s (name ++ ext)%string); [auto|congruence]. }
    rewrite Ef in *. auto.
Qed.
Print Assumptions C112_extension.
(** pickle_load: unknown keywords are a TypeError; the default extension is '.pkl'. *)
Theorem C112_pickle_load : forall P f name kw s, NoDup (keys kw) ->
    (unknown ["print_time"; "extension"]%string kw -> pickle_load_kw P f name kw s = ([], (ModelIO.Err (ModelIO.FuncErr 1), s))) /\
    (only ["print_time"]%string kw -> pickle_load_kw P f name kw s = ModelIO.pickle_load P f name s).
Proof.
  intros P f name kw s Hn. unfold pickle_load_kw. pops. split.
  - intros (k & H1 & H2). rest_cons k H2. reflexivity.
  - intros H. match goal with |- context [match ?d with [] => _ | _ :: _ => _ end] => replace d with (@nil (string * obj)) end.
    2:{ symmetry. apply no_keys. intros k Hk. repeat (rewrite keys_del in Hk). destruct_ands Hk. apply H in Hk. cbn in Hk. intuition congruence. }
    rewrite get_key_none; [cbn [or_else]; rewrite load_default; reflexivity|]. intros Hi. apply H in Hi. cbn in Hi. intuition congruence.
Qed.
Print Assumptions C112_pickle_load.

Example C112_example :
  let kw := [("include_rmse", OInt 1); ("true_values", OOther 0); ("save_name", ONone); ("parallel", OBool false)]%string in
  let arr := fun _ : nat => [Some 1%R; Some 2%R] in
  NoDup (keys kw) /\ only error_summary_keywords kw /\ no_files_used kw /\ is_value as_bool kw "parallel" true false /\
  is_value (or_none (func arr)) kw "true_values" None (Some [Some 1%R; Some 2%R]) /\ is_value as_bool kw "include_rmse" false true /\
  unknown error_summary_keywords (("axis"%string, OInt 1) :: kw).
Proof.
  cbv zeta. split; [distinct|]. split; [known_keywords|]. split; [split; [given_key|split; not_given]|]. split; [given_key|].
  split; [given_key|]. split; [given_key|]. exists "axis"%string. split; [cbn; auto|cbn; intuition discriminate].
Qed.
Example C112_multi_example :
  let kw := [("inds_to_keep", OList [OStr "run"]); ("rmse", OInt 1)]%string in
  NoDup (keys kw) /\ is_value (or_none strings) kw "inds_to_keep" None (Some ["run"%string]) /\
  unknown ("inds_to_keep"%string :: summary_keywords) kw /\
  summary_df_from_multi_kw true (fun _ => []) ["calculation type"; "run"]%string 1 [(["values"; "0"]%string, [Some 1%R])] kw = Raise TypeError /\
  summary_df_from_multi_kw true (fun _ => []) ["calculation type"; "run"]%string 1 [] kw = Raise KeyError.
Proof.
  cbv zeta. split; [distinct|]. split; [given_key|]. split; [exists "rmse"%string; split; [cbn; auto|cbn; intuition discriminate]|].
  split; reflexivity.
Qed.
(** Saving with the extension '.dat' over an existing file, without overwriting. *)
Example C112_pickle_example :
  let kw := [("extension", OStr ".dat"); ("overwrite_existing", OBool false)]%string in
  let s := ModelIO.mkIO (fun q => if String.eqb q "x.dat" then Some [5%nat] else None) (fun _ => false) [] 0 in
  let s' := snd (snd (pickle_save_kw PropIO.toy ModelIO.no_faults "now" 2%nat "x" kw s)) in
  NoDup (keys kw) /\ only save_keywords kw /\ is_value as_bool kw "overwrite_existing" true false /\
  fst (snd (pickle_save_kw PropIO.toy ModelIO.no_faults "now" 2%nat "x" kw s)) = ModelIO.Done tt /\
  ModelIO.files s' "x.dat"%string = Some [5%nat] /\ ModelIO.files s' "x_now.dat"%string <> None /\ ModelIO.io_warn s' = [].
Proof.
  cbv zeta. split; [distinct|]. split; [known_keywords|]. split; [given_key|]. split; [reflexivity|]. split; [reflexivity|].
  split; [discriminate|reflexivity].
Qed.
