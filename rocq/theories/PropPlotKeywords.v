(** C111: keyword arguments of the plots. *)
From Coq Require Import String.
From Verif Require Import Base ModelRun ModelBoot ModelReal ModelStats ModelPlots ModelCurves ModelCalls ModelKeywords ModelPlotKeywords
     Envs ProofBase ProofMonad PropKeywords.
Local Open Scope list_scope. Local Open Scope nat_scope. Local Open Scope Z_scope.

Definition bs_keywords : list string :=
  ["fthetas"; "labels"; "ftheta_lims"; "n_simulate"; "random_seed"; "figsize"; "nx"; "ny"; "cache"; "parallel";
   "rasterize_contours"; "tqdm_kwargs"]%string.
Definition diagram_keywords : list string :=
  ["fthetas"; "labels"; "ftheta_lims"; "threads_to_plot"; "plot_means"; "n_simulate"; "random_seed"; "logx_min"; "figsize";
   "colors"; "colormaps"; "cache"; "parallel"; "rasterize_contours"; "point_size"; "thin"; "npoints"; "tqdm_kwargs"]%string.
Definition dists_keywords : list string :=
  ["ftheta_lims"; "n_simulate"; "colormap"; "mean_color"; "nx"; "ny"; "cache"; "parallel"; "rasterize_contours"; "smooth";
   "flip_axes"; "tqdm_kwargs"]%string.
Definition nlive_keywords : list string :=
  ["logx_given_logl"; "logl_given_logx"; "logx_min"; "ymax"; "npoints"; "figsize"; "post_mass_norm"; "cum_post_mass_norm"]%string.
Definition kde_keywords : list string :=
  ["xlims"; "figsize"; "num_xticks"; "nrows"; "ncols"; "normalize"; "legend"; "legend_kwargs"]%string.

(** How objects are used: numbers, lengths, lists of numbers. *)
Theorem C111_objects : forall o,
    (forall n, len o = Some n <-> (exists l, o = OList l /\ length l = n) \/ (exists s, o = OStr s /\ String.length s = n)) /\
    (forall x, real o = Some x <-> (exists z, index o = Some z /\ x = IZR z) \/ (exists z, o = OFloat (Fin z) /\ x = fval z)) /\
    (forall n, count o = Some n <-> exists z, index o = Some z /\ n = Z.to_nat z) /\
    (forall s, np_seed o = Some s <-> (o = ONone /\ s = None) \/ exists z, index o = Some z /\ s = Some z) /\
    (forall l, list_of index o = Some l <-> exists objs, o = OList objs /\ Forall2 (fun x z => index x = Some z) objs l).
Proof.
  intros o. split; [|split; [|split; [|split]]].
  - intros n. destruct o; cbn [len]; split; intros H; try discriminate; try (destruct H as [(l' & H & _)|(s' & H & _)]; discriminate).
    + right. injection H as <-. eauto.
    + destruct H as [(l' & H & _)|(s' & H & <-)]; [discriminate|]. injection H as <-. auto.
    + left. injection H as <-. eauto.
    + destruct H as [(l' & H & <-)|(s' & H & _)]; [|discriminate]. injection H as <-. auto.
  - intros x. destruct o as [|b|z|[|z]|t|l|n]; cbn [real index]; split; intros H; try discriminate;
      try (destruct H as [(y & H & _)|(y & H & _)]; discriminate).
    + injection H as <-. left. exists (if b then 1 else 0). split; auto. destruct b; auto.
    + destruct H as [(y & H & ->)|(y & H & _)]; [|discriminate]. injection H as <-. destruct b; auto.
    + injection H as <-. eauto.
    + destruct H as [(y & H & ->)|(y & H & _)]; [|discriminate]. injection H as <-. auto.
    + injection H as <-. eauto.
    + destruct H as [(y & H & ->)|(y & H & ->)]; [discriminate|]. injection H as <-. auto.
  - intros n. unfold count. destruct (index o) as [z|]; cbn [option_map]; split; intros H; try discriminate.
    + injection H as <-. eauto.
    + destruct H as (y & H & ->). congruence.
    + destruct H as (y & H & _). discriminate.
  - intros s. destruct o as [|b|z|x|t|l|n]; cbn [np_seed option_map index]; split; intros H; try discriminate;
      try (destruct H as [[H _]|(y & H & _)]; discriminate);
      try (injection H as <-; auto; right; eauto);
      try (destruct H as [[H ->]|(y & H & ->)]; congruence).
  - intros l. destruct o as [|b|z|x|t|objs|n]; cbn [list_of]; split; intros H; try discriminate; try (destruct H as (y & H & _); discriminate).
    + exists objs. split; auto. revert l H. induction objs as [|x t IH]; intros l H; cbn [all_of] in H.
      * injection H as <-. constructor.
      * destruct (index x) eqn:Ex; [|discriminate]. destruct (all_of index t); [|discriminate]. injection H as <-. constructor; auto.
    + destruct H as (y & H & F). injection H as <-. induction F as [|x z t r Hx F IH]; cbn [all_of]; auto. rewrite Hx, IH. auto.
Qed.
Print Assumptions C111_objects.

(** ** Unknown keywords *)
Ltac in_rest H2 := repeat (rewrite keys_del); repeat split; auto; intros ->; apply H2; cbn; tauto.
Ltac left_over' k H1 H2 :=
  match goal with
  | |- context [no_more ?kw] =>
      let Hin := fresh in
      assert (Hin : In k (keys kw)) by in_rest H2; unfold wbind at 1; rewrite (no_more_unknown _ _ k) by exact Hin
  end.
(** TypeError, without any change of the random state or of the runs.  A list of
    quantities which is given is a list of functions; for kde_plot_df xlims and
    nrows are looked at before. *)
Theorem C111_unknown : forall kw, NoDup (keys kw) ->
    (unknown bs_keywords kw -> forall E os fn runs (w : world E),
       (forall v, In ("fthetas"%string, v) kw -> exists ns, v = OList (map OOther ns)) ->
       bs_param_dists_kw os fn runs kw w = (Raise TypeError, w)) /\
    (unknown diagram_keywords kw -> forall E os fn U runs (w : world E),
       (forall v, In ("fthetas"%string, v) kw -> exists ns, v = OList (map OOther ns)) ->
       param_logx_diagram_kw os fn U runs kw w = (Raise TypeError, w)) /\
    (unknown dists_keywords kw -> forall E r fthetas naxes (w : world E),
       plot_bs_dists_kw r fthetas naxes kw w = (Raise TypeError, w)) /\
    (unknown nlive_keywords kw -> forall lx ll names d, plot_run_nlive_kw lx ll names d kw = (Raise TypeError, d)) /\
    (unknown kde_keywords kw -> forall isdict py3 kde df,
       (forall v, In ("xlims"%string, v) kw -> v = ONone \/ exists n, v = OOther n /\ isdict n = true) ->
       (forall v, In ("nrows"%string, v) kw -> exists z, index v = Some z /\ 0 < z) ->
       kde_plot_df_kw isdict py3 kde df kw = Raise TypeError).
Proof.
  intros kw Hn.
  assert (Hf : forall fn, (forall v, In ("fthetas"%string, v) kw -> exists ns, v = OList (map OOther ns)) ->
            exists fs, given_or (list_of (func fn)) two_columns (get_key "fthetas"%string kw) = Some fs).
  { intros fn H. destruct (in_dec string_dec "fthetas"%string (keys kw)) as [Hi|Hi].
    - apply in_map_iff in Hi as ([k v] & Ek & Hi). cbn in Ek. subst k. destruct (H v Hi) as (ns & ->).
      rewrite (get_key_in _ _ kw Hn Hi). cbn. clear Hi. induction ns as [|n ns IH]; cbn; [eauto|]. destruct IH as (fs & ->). eauto.
    - rewrite get_key_none by auto. cbn. eauto. }
  split; [|split; [|split; [|split]]].
  - intros (k & H1 & H2) E os fn runs w H. destruct (Hf fn H) as (fs & Efs). unfold bs_param_dists_kw. bound. pops. rewrite Efs.
    left_over' k H1 H2. reflexivity.
  - intros (k & H1 & H2) E os fn U runs w H. destruct (Hf fn H) as (fs & Efs). unfold param_logx_diagram_kw. bound. pops. rewrite Efs.
    left_over' k H1 H2. reflexivity.
  - intros (k & H1 & H2) E r fthetas naxes w. unfold plot_bs_dists_kw. bound. pops.
    left_over' k H1 H2. reflexivity.
  - intros (k & H1 & H2) lx ll names d. unfold plot_run_nlive_kw. destruct (existsb _ _); auto. pops.
    match goal with |- context [match ?d with [] => _ | _ :: _ => _ end] => assert (Hin : In k (keys d)) end.
    { in_rest H2. }
    match goal with |- context [match ?d with [] => _ | _ :: _ => _ end] => destruct d; [contradiction|reflexivity] end.
  - intros (k & H1 & H2) isdict py3 kde df Hx Hr. unfold kde_plot_df_kw. destruct (has_key "df"%string kw); auto. pops.
    assert (Ex : match get_key "xlims"%string kw with None | Some ONone => true | Some (OOther n) => isdict n | Some _ => false end = true).
    { destruct (in_dec string_dec "xlims"%string (keys kw)) as [Hi|Hi].
      - apply in_map_iff in Hi as ([j v] & Ek & Hi). cbn in Ek. subst j. rewrite (get_key_in _ _ kw Hn Hi).
        destruct (Hx v Hi) as [->|(n & -> & Hd)]; auto.
      - rewrite get_key_none by auto. auto. }
    rewrite Ex. cbn [assertb rbind].
    assert (Er : exists n, given_or npoints_of 1%nat (get_key "nrows"%string kw) = Some (S n)).
    { destruct (in_dec string_dec "nrows"%string (keys kw)) as [Hi|Hi].
      - apply in_map_iff in Hi as ([j v] & Ek & Hi). cbn in Ek. subst j. rewrite (get_key_in _ _ kw Hn Hi).
        destruct (Hr v Hi) as (z & Ez & Hz). cbn. unfold npoints_of. rewrite Ez. destruct (Z.ltb_spec z 0); [lia|].
        exists (pred (Z.to_nat z)). f_equal. lia.
      - rewrite get_key_none by auto. exists 0%nat. reflexivity. }
    destruct Er as (n & ->). cbn [Nat.eqb].
    match goal with |- context [match ?d with [] => _ | _ :: _ => _ end] => assert (Hin : In k (keys d)) end.
    { in_rest H2. }
    match goal with |- context [match ?d with [] => _ | _ :: _ => _ end] => destruct d; [contradiction|reflexivity] end.
Qed.
Print Assumptions C111_unknown.

(** ** Known keywords, in any order *)
Lemma given_value : forall A (conv : obj -> option A) kw k d a, NoDup (keys kw) -> is_value conv kw k d a ->
    given_or conv d (get_key k kw) = Some a.
Proof.
  intros A conv kw k d a Hn [(v & Hi & E)|[Hno ->]].
  - rewrite (get_key_in k v kw) by auto. auto.
  - rewrite get_key_none by auto. reflexivity.
Qed.
Ltac nothing_left' H :=
  match goal with
  | |- context [no_more ?kw] =>
      replace kw with (@nil (string * obj));
      [|symmetry; apply no_keys; let k := fresh in let Hk := fresh in intros k Hk;
        repeat (rewrite keys_del in Hk); destruct_ands Hk; apply H in Hk; cbn in Hk; intuition congruence]
  end.

(** The quantities are those given, or the first two parameters; there are as
    many labels and limits as quantities if they are not given; 100 simulations
    and seed 0. *)
Theorem C111_bs_param_dists : forall E os fn runs kw fthetas nlabels nlims n s (w : world E), NoDup (keys kw) ->
    only bs_keywords kw ->
    is_value (list_of (func fn)) kw "fthetas" [column 0; column 1] fthetas ->
    is_value len kw "labels" (length fthetas) nlabels -> is_value len kw "ftheta_lims" (length fthetas) nlims ->
    is_value count kw "n_simulate" 100%nat n -> is_value np_seed kw "random_seed" (Some 0) s ->
    bs_param_dists_kw os fn runs kw w = bs_param_dists runs fthetas nlabels nlims n s (os 0%nat) w.
Proof.
  intros E os fn runs kw fthetas nlabels nlims n s w Hn H H1 H2 H3 H4 H5. unfold bs_param_dists_kw. unbound H. pops.
  unfold two_columns. rewrite (given_value _ _ _ _ _ _ Hn H1). nothing_left' H. unfold wbind at 1. cbn [no_more]. unfold wret.
  rewrite (given_value _ _ _ _ _ _ Hn H2), (given_value _ _ _ _ _ _ Hn H3), (given_value _ _ _ _ _ _ Hn H4), (given_value _ _ _ _ _ _ Hn H5).
  reflexivity.
Qed.
Print Assumptions C111_bs_param_dists.
Theorem C111_param_logx_diagram : forall E os fn U runs kw fthetas nlabels nlims threads means n s xmin nco ncm thin (w : world E),
    NoDup (keys kw) -> only diagram_keywords kw ->
    is_value (list_of (func fn)) kw "fthetas" [column 0; column 1] fthetas ->
    is_value len kw "labels" (length fthetas) nlabels -> is_value len kw "ftheta_lims" (length fthetas) nlims ->
    is_value (or_none (list_of index)) kw "threads_to_plot" (Some [0]) threads -> is_value as_bool kw "plot_means" true means ->
    is_value count kw "n_simulate" 100%nat n -> is_value np_seed kw "random_seed" (Some 0) s ->
    is_value (or_none real) kw "logx_min" None xmin -> is_value len kw "colors" 5%nat nco -> is_value len kw "colormaps" 5%nat ncm ->
    is_value real kw "thin" 1%R thin ->
    param_logx_diagram_kw os fn U runs kw w =
      param_logx_diagram U runs fthetas (mkOptions nlabels nlims threads means n xmin nco ncm thin) s os w.
Proof.
  intros E os fn U runs kw fthetas nlabels nlims threads means n s xmin nco ncm thin w Hn H H1 H2 H3 H4 H5 H6 H7 H8 H9 H10 H11.
  unfold param_logx_diagram_kw. unbound H. pops. unfold two_columns. rewrite (given_value _ _ _ _ _ _ Hn H1). nothing_left' H.
  unfold wbind at 1. cbn [no_more]. unfold wret.
  rewrite (given_value _ _ _ _ _ _ Hn H2), (given_value _ _ _ _ _ _ Hn H3), (given_value _ _ _ _ _ _ Hn H4), (flag_of kw _ _ _ Hn H5),
    (given_value _ _ _ _ _ _ Hn H6), (given_value _ _ _ _ _ _ Hn H7), (given_value _ _ _ _ _ _ Hn H8), (given_value _ _ _ _ _ _ Hn H9),
    (given_value _ _ _ _ _ _ Hn H10), (given_value _ _ _ _ _ _ Hn H11). reflexivity.
Qed.
Print Assumptions C111_param_logx_diagram.
(** A seed which is not None or an integer: TypeError, and nothing is changed. *)
Theorem C111_seed_type : forall E os fn U runs kw fthetas v (w : world E), NoDup (keys kw) ->
    is_value (list_of (func fn)) kw "fthetas" [column 0; column 1] fthetas ->
    In ("random_seed"%string, v) kw -> v <> ONone -> index v = None ->
    (only bs_keywords kw -> bs_param_dists_kw os fn runs kw w = (Raise TypeError, w)) /\
    (only diagram_keywords kw -> param_logx_diagram_kw os fn U runs kw w = (Raise TypeError, w)).
Proof.
  intros E os fn U runs kw fthetas v w Hn H1 Hv Hne Hi.
  assert (Es : given_or np_seed (Some 0) (get_key "random_seed"%string kw) = None).
  { rewrite (get_key_in _ _ kw Hn Hv). cbn. destruct v; cbn in *; try congruence; rewrite ?Hi; auto. }
  split; intros H; [unfold bs_param_dists_kw|unfold param_logx_diagram_kw]; unbound H; pops; unfold two_columns;
    rewrite (given_value _ _ _ _ _ _ Hn H1); nothing_left' H; unfold wbind at 1; cbn [no_more]; unfold wret; rewrite Es; reflexivity.
Qed.
Print Assumptions C111_seed_type.
Theorem C111_plot_bs_dists : forall E r fthetas naxes kw nlims n c (w : world E), NoDup (keys kw) -> only dists_keywords kw ->
    is_value len kw "ftheta_lims" (length fthetas) nlims -> is_value count kw "n_simulate" 100%nat n ->
    is_value as_is kw "mean_color" ONone c ->
    (c = ONone -> plot_bs_dists_kw r fthetas naxes kw w = plot_bs_dists r fthetas naxes nlims n false w) /\
    (c <> ONone -> plot_bs_dists_kw r fthetas naxes kw w = plot_bs_dists r fthetas naxes nlims n true w).
Proof.
  intros E r fthetas naxes kw nlims n c w Hn H H1 H2 H3.
  assert (Ec : or_else (get_key "mean_color"%string kw) ONone = c) by (apply value_of; auto).
  split; intros Hc; unfold plot_bs_dists_kw; unbound H; pops; nothing_left' H; unfold wbind at 1; cbn [no_more]; unfold wret;
    rewrite (given_value _ _ _ _ _ _ Hn H1), (given_value _ _ _ _ _ _ Hn H2); destruct (get_key "mean_color"%string kw) as [v|]; cbn in Ec; subst;
    try congruence; try reflexivity; destruct v || destruct c; congruence || reflexivity.
Qed.
Print Assumptions C111_plot_bs_dists.
Theorem C111_plot_run_nlive : forall lx ll names d kw g f xmin n norm cum, NoDup (keys kw) -> only nlive_keywords kw ->
    is_value (or_none (func lx)) kw "logx_given_logl" None g -> is_value (or_none (func ll)) kw "logl_given_logx" None f ->
    is_value (or_none real) kw "logx_min" None xmin -> is_value index kw "npoints" 100 (Z.of_nat n) ->
    is_value (or_none index) kw "post_mass_norm" None norm -> is_value (or_none index) kw "cum_post_mass_norm" None cum ->
    plot_run_nlive_kw lx ll names d kw = plot_run_nlive names d g f xmin n norm cum.
Proof.
  intros lx ll names d kw g f xmin n norm cum Hn H H1 H2 H3 H4 H5 H6. unfold plot_run_nlive_kw.
  replace (existsb (fun k => has_key k kw) ["method_names"; "run_dict"]%string) with false.
  2:{ symmetry. cbn [existsb]. rewrite !has_key_no; auto; intros Hi; apply H in Hi; cbn in Hi; intuition congruence. }
  pops.
  match goal with |- context [match ?d with [] => _ | _ :: _ => _ end] => replace d with (@nil (string * obj)) end.
  2:{ symmetry. apply no_keys. intros k Hk. repeat (rewrite keys_del in Hk). destruct_ands Hk. apply H in Hk. cbn in Hk. intuition congruence. }
  assert (En : given_or npoints_of 100%nat (get_key "npoints"%string kw) = Some n).
  { destruct H4 as [(v & Hi & Ev)|[Hno Ea]].
    - rewrite (get_key_in _ _ kw Hn Hi). cbn. unfold npoints_of. rewrite Ev. destruct (Z.ltb_spec (Z.of_nat n) 0); [lia|]. f_equal. lia.
    - rewrite get_key_none by auto. cbn [given_or]. f_equal. lia. }
  rewrite (given_value _ _ _ _ _ _ Hn H1), (given_value _ _ _ _ _ _ Hn H2), (given_value _ _ _ _ _ _ Hn H3), En,
    (given_value _ _ _ _ _ _ Hn H5), (given_value _ _ _ _ _ _ Hn H6). reflexivity.
Qed.
Print Assumptions C111_plot_run_nlive.

(** kde_plot_df: xlims must be None or a dictionary, whatever the other keywords. *)
Theorem C111_kde_plot_df : forall isdict py3 kde df kw, NoDup (keys kw) -> only kde_keywords kw ->
    (forall v, In ("xlims"%string, v) kw -> v <> ONone -> (forall n, v = OOther n -> isdict n = false) ->
       kde_plot_df_kw isdict py3 kde df kw = Raise AssertionError) /\
    ((forall v, In ("xlims"%string, v) kw -> v = ONone \/ exists n, v = OOther n /\ isdict n = true) ->
     forall nrows ncols normalize legend,
       is_value index kw "nrows" 1 (Z.of_nat nrows) ->
       is_value (fun o => match index o with Some z => if 0 <=? z then Some (Some (Z.to_nat z)) else None | None => None end) kw "ncols" None ncols ->
       is_value as_bool kw "normalize" true normalize -> is_value as_bool kw "legend" false legend ->
       kde_plot_df_kw isdict py3 kde df kw = kde_plot_df py3 kde df nrows ncols normalize legend).
Proof.
  intros isdict py3 kde df kw Hn H.
  assert (Hdf : has_key "df"%string kw = false) by (apply has_key_no; intros Hi; apply H in Hi; cbn in Hi; intuition congruence).
  split.
  - intros v Hv Hne Hd. unfold kde_plot_df_kw. rewrite Hdf. pops. rewrite (get_key_in _ _ kw Hn Hv).
    destruct v; try congruence; try reflexivity. rewrite (Hd _ eq_refl). reflexivity.
  - intros Hx nrows ncols normalize legend H1 H2 H3 H4. unfold kde_plot_df_kw. rewrite Hdf. pops.
    assert (Ex : match get_key "xlims"%string kw with None | Some ONone => true | Some (OOther n) => isdict n | Some _ => false end = true).
    { destruct (in_dec string_dec "xlims"%string (keys kw)) as [Hi|Hi].
      - apply in_map_iff in Hi as ([j v] & Ek & Hi). cbn in Ek. subst j. rewrite (get_key_in _ _ kw Hn Hi).
        destruct (Hx v Hi) as [->|(n & -> & Hd)]; auto.
      - rewrite get_key_none by auto. auto. }
    rewrite Ex. cbn [assertb rbind].
    assert (En : given_or npoints_of 1%nat (get_key "nrows"%string kw) = Some nrows).
    { destruct H1 as [(v & Hi & Ev)|[Hno Ea]].
      - rewrite (get_key_in _ _ kw Hn Hi). cbn. unfold npoints_of. rewrite Ev. destruct (Z.ltb_spec (Z.of_nat nrows) 0); [lia|]. f_equal. lia.
      - rewrite get_key_none by auto. cbn [given_or]. f_equal. lia. }
    rewrite En. unfold kde_plot_df at 1. destruct (Nat.eqb_spec nrows 0) as [->|Hz]; [reflexivity|].
    match goal with |- context [match ?d with [] => match given_or _ _ _ with _ => _ end | _ :: _ => _ end] => replace d with (@nil (string * obj)) end.
    2:{ symmetry. apply no_keys. intros k Hk. repeat (rewrite keys_del in Hk). destruct_ands Hk. apply H in Hk. cbn in Hk. intuition congruence. }
    assert (Ec : given_or (fun o => option_map Some (npoints_of o)) None (get_key "ncols"%string kw) = Some ncols).
    { destruct H2 as [(v & Hi & Ev)|[Hno Ea]].
      - rewrite (get_key_in _ _ kw Hn Hi). cbn. unfold npoints_of. destruct (index v) as [z|]; [|discriminate].
        destruct (Z.leb_spec 0 z); [|discriminate]. destruct (Z.ltb_spec z 0); [lia|]. auto.
      - rewrite get_key_none by auto. cbn [given_or]. congruence. }
    rewrite Ec, (flag_of kw _ _ _ Hn H3), (flag_of kw _ _ _ Hn H4).
    unfold kde_plot_df. destruct (Nat.eqb_spec nrows 0); [congruence|reflexivity].
Qed.
Print Assumptions C111_kde_plot_df.

(** Zero rows: ZeroDivisionError, also with unknown keywords. *)
Theorem C111_zero_rows : forall isdict py3 kde df kw v, NoDup (keys kw) -> ~ In "df"%string (keys kw) ->
    (forall v, In ("xlims"%string, v) kw -> v = ONone \/ exists n, v = OOther n /\ isdict n = true) ->
    In ("nrows"%string, v) kw -> index v = Some 0 ->
    kde_plot_df_kw isdict py3 kde df kw = Raise ZeroDivisionError.
Proof.
  intros isdict py3 kde df kw v Hn Hdf Hx Hv E0. unfold kde_plot_df_kw. rewrite has_key_no by auto. pops.
  assert (Ex : match get_key "xlims"%string kw with None | Some ONone => true | Some (OOther n) => isdict n | Some _ => false end = true).
  { destruct (in_dec string_dec "xlims"%string (keys kw)) as [Hi|Hi].
    - apply in_map_iff in Hi as ([j u] & Ek & Hi). cbn in Ek. subst j. rewrite (get_key_in _ _ kw Hn Hi).
      destruct (Hx u Hi) as [->|(n & -> & Hd)]; auto.
    - rewrite get_key_none by auto. auto. }
  rewrite Ex. cbn [assertb rbind]. rewrite (get_key_in _ _ kw Hn Hv). cbn [given_or]. unfold npoints_of. rewrite E0. reflexivity.
Qed.
Print Assumptions C111_zero_rows.

(** The default quantities: the first and the second parameter. *)
Theorem C111_columns : forall i th, 
    ((forall row, In row th -> (i < length row)%nat) -> column i th = Ok (map (fun row => Some (fval (nth i row 0))) th)) /\
    ((exists row, In row th /\ (length row <= i)%nat) -> column i th = Raise IndexError).
Proof.
  intros i th. unfold column. split.
  - intros H. induction th as [|row th IH]; auto. cbn [mapM map].
    rewrite (nth_error_nth' row 0) by (apply H; left; auto). cbn [rbind]. rewrite IH by (intros; apply H; right; auto). auto.
  - induction th as [|row th IH]; intros (x & Hx & Hl); [contradiction|]. destruct Hx as [->|Hx]; cbn [mapM].
    + apply nth_error_None in Hl. rewrite Hl. reflexivity.
    + destruct (nth_error row i); [|reflexivity]. cbn [rbind]. rewrite IH by eauto. reflexivity.
Qed.
Print Assumptions C111_columns.

Example C111_example :
  let kw := [("n_simulate", OInt 3); ("fthetas", OList [OOther 4]); ("labels", OStr "x"); ("cache", OStr "c")]%string in
  NoDup (keys kw) /\ only bs_keywords kw /\ is_value (list_of (func column)) kw "fthetas" two_columns [column 4] /\
  is_value len kw "labels" 1%nat 1%nat /\ is_value len kw "ftheta_lims" 1%nat 1%nat /\ is_value count kw "n_simulate" 100%nat 3%nat /\
  is_value np_seed kw "random_seed" (Some 0) (Some 0) /\ unknown bs_keywords (("seed"%string, OInt 1) :: kw).
Proof.
  cbv zeta. split; [distinct|]. split; [known_keywords|]. split; [given_key|]. split; [given_key|]. split; [not_given|].
  split; [given_key|]. split; [not_given|]. exists "seed"%string. split; [cbn; auto|cbn; intuition discriminate].
Qed.
Example C111_kde_example :
  let kw := [("nrows", OInt 0); ("rows", OInt 2)]%string in
  NoDup (keys kw) /\ ~ In "df"%string (keys kw) /\ In ("nrows"%string, OInt 0) kw /\ unknown kde_keywords kw /\
  kde_plot_df_kw (fun _ => false) true (fun _ _ => Ok []) [] kw = Raise ZeroDivisionError.
Proof.
  cbv zeta. split; [distinct|]. split; [cbn; intuition discriminate|]. split; [cbn; auto|]. split; [|reflexivity].
  exists "rows"%string. split; [cbn; auto|cbn; intuition discriminate].
Qed.
Example C111_nlive_example :
  let kw := [("npoints", OBool true); ("logx_min", ONone)]%string in
  NoDup (keys kw) /\ only nlive_keywords kw /\ is_value index kw "npoints" 100 (Z.of_nat 1) /\
  is_value (or_none real) kw "logx_min" None None.
Proof. cbv zeta. split; [distinct|]. split; [known_keywords|]. split; given_key. Qed.
