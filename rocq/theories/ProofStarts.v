(** Where combine_threads counts the starts of threads (C72). *)
From Verif Require Import Base ModelRun Envs ProofBase ProofMonad Spec SpecRun ProofRun ProofDict
     ProofProcess ProofComb ProofRuns ProofJoin ProofTies.

Lemma occurs_where : forall s rows, occurs s (map r_logl rows) = length (where_ (fun x => r_logl x =? s) rows).
Proof.
  intros s rows. rewrite where_length. unfold occurs. induction rows as [|x t IH]; auto.
  cbn [map count_occ countb]. destruct (Z.eq_dec (r_logl x) s) as [H|H].
  - rewrite (proj2 (Z.eqb_eq _ _) H). auto.
  - rewrite (proj2 (Z.eqb_neq _ _) H). auto.
Qed.

Lemma add_start_false : forall E rows s (w : world E), rows <> [] ->
    exists i w1, add_start false rows s w = (Ok (bump i rows), w1) /\ w_warn w1 = w_warn w /\
                 attached (map r_logl rows) s i.
Proof.
  intros E rows s w Hne. destruct (starts_near E [s] rows w Hne) as (bs & w' & H1 & H2 & H3).
  inversion H3 as [|? b ? l Hb Hl]; subst. inversion Hl; subst. cbn [wfoldM fold_left] in H1.
  apply wbind_Ok in H1 as (x & w1 & H1 & H4). inversion H4; subst. exists b, w'. auto.
Qed.
Lemma add_start_true : forall E rows s (w : world E), rows <> [] ->
    if (occurs s (map r_logl rows) =? 1)%nat
    then exists i, add_start true rows s w = (Ok (bump i rows), w) /\ attached (map r_logl rows) s i
    else add_start true rows s w = (Raise AssertionError, w).
Proof.
  intros E rows s w Hne. destruct (add_start_false E rows s w Hne) as (i & w1 & H1 & H2 & H3).
  rewrite occurs_where. unfold add_start in *. unfold wbind at 1 in H1. unfold wbind at 1 3. cbn in H1.
  destruct (Nat.eqb (length (where_ (fun x => r_logl x =? s) rows)) 1) eqn:Hl; [|reflexivity].
  cbn. destruct (where_ (fun x => r_logl x =? s) rows) as [|a [|b l]]; try discriminate.
  exists i. inversion H1. split; congruence.
Qed.

Lemma starts_run : forall E abp ss rows (w : world E), rows <> [] ->
    match wfoldM (add_start abp) ss rows w with
    | (Ok rows', w') => exists bs, rows' = fold_left (fun l i => bump i l) bs rows /\
        w_warn w' = w_warn w /\ Forall2 (attached (map r_logl rows)) ss bs /\
        (abp = true -> Forall (fun s => occurs s (map r_logl rows) = 1%nat) ss)
    | (Raise e, w') => abp = true /\ e = AssertionError /\ w' = w /\
        exists s, In s ss /\ occurs s (map r_logl rows) <> 1%nat
    end.
Proof.
  intros E abp ss. induction ss as [|s t IH]; intros rows w Hne.
  - exists []. split; [auto|]. split; auto.
  - cbn [wfoldM]. unfold wbind at 1. destruct abp.
    + pose proof (add_start_true E rows s w Hne) as Hs.
      destruct (occurs s (map r_logl rows) =? 1)%nat eqn:Ho.
      2: { rewrite Hs. apply Nat.eqb_neq in Ho. repeat split; auto. exists s. split; [left|]; auto. }
      apply Nat.eqb_eq in Ho. destruct Hs as (i & H1 & H2). rewrite H1.
      specialize (IH (bump i rows) w).
      assert (Hb : map r_logl (bump i rows) = map r_logl rows) by apply bump_logl. rewrite Hb in IH.
      assert (Hn : bump i rows <> []).
      { intros H. rewrite H in Hb. symmetry in Hb. apply map_eq_nil in Hb. auto. }
      specialize (IH Hn). destruct (wfoldM (add_start true) t (bump i rows) w) as [[rows'|e] w'].
      * destruct IH as (bs & I1 & I2 & I3 & I4). exists (i :: bs). repeat split; auto.
      * destruct IH as (I1 & I2 & I3 & s' & I4 & I5). repeat split; auto. exists s'. split; [right|]; auto.
    + destruct (add_start_false E rows s w Hne) as (i & w1 & H1 & H2 & H3). rewrite H1.
      specialize (IH (bump i rows) w1).
      assert (Hb : map r_logl (bump i rows) = map r_logl rows) by apply bump_logl. rewrite Hb in IH.
      assert (Hn : bump i rows <> []).
      { intros H. rewrite H in Hb. symmetry in Hb. apply map_eq_nil in Hb. auto. }
      specialize (IH Hn). destruct (wfoldM (add_start false) t (bump i rows) w1) as [[rows'|e] w'].
      * destruct IH as (bs & I1 & I2 & I3 & I4). exists (i :: bs). rewrite <- H2. repeat split; auto. discriminate.
      * destruct IH as (I1 & _). discriminate.
Qed.

Lemma start_contours_finite : forall mms, finite_starts mms = start_contours mms.
Proof. induction mms as [|[[|s] e] t IH]; simpl; auto. unfold finite_starts in *. simpl. f_equal. auto. Qed.
Lemma single_is_thread : forall th lab mm, single_thread th lab mm -> a_thread th lab mm.
Proof. intros th lab mm (H1 & H2 & H3 & H4 & H5 & H6 & H7 & H8). constructor; auto. Qed.

Lemma key_combine : forall rows, map key rows = combine (map r_logl rows) (combine (map r_lab rows) (map r_theta rows)).
Proof. induction rows as [|x t IH]; auto. cbn [map combine]. f_equal. auto. Qed.
Lemma thread_keys : forall th lab mm, a_thread th lab mm -> map key (thread_rows th lab) = labelled_samples th lab.
Proof.
  intros th lab mm H. rewrite key_combine. destruct (thread_rows_cols _ _ _ H) as (R1 & R2 & _ & R4 & _).
  rewrite R1, R2, R4. unfold labelled_samples. generalize (theta th) (at_theta _ _ _ H). clear.
  induction (logl th) as [|x t IH]; intros [|y u] Hl; simpl in *; try lia; auto. f_equal. apply IH. lia.
Qed.

Section Starts.
Variables (specs : list (run * (Z * (ext * Z)))).
Hypothesis Hok : forall x, In x specs -> single_thread (fst x) (fst (snd x)) (snd (snd x)).
Hypothesis Hne : specs <> [].
Let mms := map (fun x => snd (snd x)) specs.

Lemma specs_ok : forall x, In x specs -> ts_ok x.
Proof. intros x Hx. apply single_is_thread. auto. Qed.
Lemma specs_rows : ts_rows specs <> [].
Proof.
  intros Hn. destruct specs as [|x t]; [congruence|]. pose proof (single_is_thread _ _ _ (Hok x (or_introl eq_refl))) as Hx.
  destruct (thread_rows_cols _ _ _ Hx) as (R1 & _). unfold ts_rows in Hn. cbn [flat_map] in Hn.
  apply app_eq_nil in Hn as [Hn _]. rewrite Hn in R1. apply (at_ne _ _ _ Hx); auto.
Qed.
Lemma specs_logl : map r_logl (ts_rows specs) = flat_map (fun x => logl (fst x)) specs.
Proof.
  clear Hne mms. induction specs as [|x t IH]; auto. unfold ts_rows in *. cbn [flat_map]. rewrite map_app, IH.
  - f_equal. destruct (thread_rows_cols _ _ _ (single_is_thread _ _ _ (Hok x (or_introl eq_refl)))) as (R1 & _). auto.
  - intros y Hy. apply Hok. right; auto.
Qed.

Lemma specs_keys : map key (ts_rows specs) = flat_map (fun x => labelled_samples (fst x) (fst (snd x))) specs.
Proof.
  clear Hne mms. induction specs as [|x t IH]; auto. unfold ts_rows in *. cbn [flat_map]. rewrite map_app, IH.
  - f_equal. eapply thread_keys, single_is_thread, Hok. left; auto.
  - intros y Hy. apply Hok. right; auto.
Qed.

(** combine_threads up to the counting of the starts. *)
Lemma combine_run : forall E abp (w : world E),
    let sorted := sort_rows E (ts_rows specs) in
    (exists bs, Forall2 (attached (map r_logl sorted)) (start_contours mms) bs /\
       (abp = true -> Forall (fun s => occurs s (map r_logl sorted) = 1%nat) (start_contours mms)) /\
       combine_threads (map fst specs) abp w =
       (let* r := dict_given_run_array (fold_left (fun l i => bump i l) bs sorted) mms in wlift (drop_bad_threads r)) w) \/
    (abp = true /\ (exists s, In s (start_contours mms) /\ occurs s (map r_logl sorted) <> 1%nat) /\
     combine_threads (map fst specs) abp w = (Raise AssertionError, mkW (r_seed E 0) (w_warn w))).
Proof.
  intros E abp w sorted. destruct (ts_arrays specs specs_ok) as [A1 A2].
  assert (Hsne : sorted <> []).
  { intros H. assert (Hp : Permutation sorted (ts_rows specs)) by apply sort_rows_perm.
    rewrite H in Hp. apply Permutation_nil in Hp. apply specs_rows; auto. }
  pose proof (starts_run E abp (start_contours mms) sorted (mkW (r_seed E 0) (w_warn w)) Hsne) as Hs.
  assert (Hc : combine_threads (map fst specs) abp w =
    (let* samples := wfoldM (add_start abp) (start_contours mms) sorted in
     let* _ := set_state (w_rng w) in
     let* r := dict_given_run_array samples mms in wlift (drop_bad_threads r)) (mkW (r_seed E 0) (w_warn w))).
  { unfold combine_threads. destruct (map fst specs) as [|y t] eqn:Hm.
    { destruct specs; [congruence|discriminate]. }
    rewrite <- Hm in *. clear y t Hm. rewrite A2, A1. fold mms.
    change (ts_tmm specs) with mms. rewrite start_contours_finite.
    replace (length (map fst specs) =? length mms)%nat with true
      by (symmetry; apply Nat.eqb_eq; unfold mms; rewrite !map_length; auto).
    rewrite (wbind_run _ _ _ _ _ w tt w) by reflexivity.
    rewrite (wbind_run _ _ _ _ _ w _ w) by reflexivity.
    rewrite (wbind_run _ _ _ _ _ w (w_rng w) w) by reflexivity.
    rewrite (wbind_run _ _ _ _ _ w tt (mkW (r_seed E 0) (w_warn w))) by reflexivity.
    replace (concat (map (fun x => thread_rows (fst x) (fst (snd x))) specs)) with (ts_rows specs)
      by (unfold ts_rows; rewrite <- flat_map_concat_map; auto). reflexivity. }
  rewrite Hc. clear Hc.
  destruct (wfoldM (add_start abp) (start_contours mms) sorted (mkW (r_seed E 0) (w_warn w))) as [[rows|e] w'] eqn:Hf.
  - left. destruct Hs as (bs & -> & H2 & H3 & H4). exists bs. split; auto. split; auto.
    rewrite (wbind_run _ _ _ _ _ _ _ _ Hf). unfold wbind at 1, set_state. rewrite H2. cbn [w_warn].
    rewrite world_eta. reflexivity.
  - right. destruct Hs as (-> & -> & -> & H4). split; [auto|]. split; [auto|].
    rewrite (wbind_raise _ _ _ _ _ _ _ _ Hf). reflexivity.
Qed.

Lemma fold_bump_length : forall bs rows, length (fold_left (fun l i => bump i l) bs rows) = length rows.
Proof.
  intros. pose proof (fold_bump_key bs rows) as H. apply (f_equal (@length _)) in H. rewrite !map_length in H. auto.
Qed.

Theorem combine_starts : forall E abp (w : world E) r w',
    (forall s, In s (start_contours mms) -> exists x, In x (flat_map (fun x => logl (fst x)) specs) /\ x < s) ->
    combine_threads (map fst specs) abp w = (Ok r, w') ->
    exists bs labs, w' = w /\
      Forall2 (attached (logl r)) (start_contours mms) bs /\
      (abp = true -> Forall (fun s => occurs s (logl r) = 1%nat) (start_contours mms)) /\
      length (nlive_array r) = length (logl r) /\
      (forall i, (i < length (logl r))%nat ->
         (forall j, (j < i)%nat -> nth j (logl r) 0 < nth i (logl r) 0) ->
         nth i (nlive_array r) 0 =
         Z.of_nat (length mms - length (start_contours mms))
         + Z.of_nat (length (filter (fun b => nth b (logl r) 0 <? nth i (logl r) 0) bs))
         - Z.of_nat (length (filter (fun mm => snd mm <? nth i (logl r) 0) mms))) /\
      Permutation (combine (logl r) (combine labs (theta r)))
                  (flat_map (fun x => labelled_samples (fst x) (fst (snd x))) specs) /\
      length labs = length (logl r) /\ length (theta r) = length (logl r) /\
      output r = None /\ settings r = None /\
      let valid := valid_columns (logl r) (length (theta r)) (length (nlive_array r)) labs
                                 (map (fun mm => ext_opt (fst mm)) mms) (map snd mms) in
      (valid -> thread_labels r = Some labs /\ thread_min_max r = Some mms) /\
      (~ valid -> thread_labels r = None /\ thread_min_max r = None).
Proof.
  intros E abp w r w' Hsa H.
  destruct (combine_run E abp w) as [(bs & B1 & B2 & B3)|(_ & _ & B3)]; [|rewrite B3 in H; discriminate].
  rewrite B3 in H. set (sorted := sort_rows E (ts_rows specs)) in *.
  set (rows := fold_left (fun l i => bump i l) bs sorted) in *.
  assert (Hk : map key rows = map key sorted) by apply fold_bump_key.
  destruct (keys_cols _ _ Hk) as (K1 & K2 & K3).
  assert (Hlen : length rows = length sorted) by apply fold_bump_length.
  assert (Hlg : Permutation (map r_logl rows) (map r_logl (ts_rows specs))).
  { rewrite K1. apply Permutation_map, sort_rows_perm. }
  assert (Hs : StronglySorted Z.le (map r_logl rows)) by (rewrite K1; apply sort_rows_sorted).
  assert (Hrne : rows <> []).
  { intros Hn. rewrite Hn in Hlg. simpl in Hlg. apply Permutation_nil in Hlg.
    apply map_eq_nil in Hlg. apply specs_rows; auto. }
  assert (Hsa' : starts_above mms (min_list (map r_logl rows))).
  { intros m e Hin. destruct (Hsa m) as (x & X1 & X2).
    { clear - Hin. induction mms as [|[[|s] e'] t IH]; simpl in *; [destruct Hin| |].
      - apply IH. destruct Hin as [Hin|Hin]; [discriminate|auto].
      - destruct Hin as [Hin|Hin]; [inversion Hin; left; auto|right; auto]. }
    rewrite <- specs_logl in X1. apply (Permutation_in _ (Permutation_sym Hlg)) in X1.
    destruct (min_list_spec (map r_logl rows)) as [_ Hm]; [intros Hn; apply map_eq_nil in Hn; auto|].
    specialize (Hm _ X1). lia. }
  destruct (n_start_ninf rows mms Hsa') as [Hn0 Hdup].
  assert (Hcn : countb (fun mm => is_ninf (fst mm)) mms = (length mms - length (start_contours mms))%nat).
  { clear. assert (H : (length (start_contours mms) + countb (fun mm => is_ninf (fst mm)) mms = length mms)%nat); [|lia].
    induction mms as [|[[|s] e] t IH]; simpl; auto; lia. }
  unfold wbind in H. rewrite dict_run in H by (auto; lia).
  set (nl := nl_of (n_start rows mms) (map r_dn rows)) in *.
  destruct ((0 <? n_start rows mms) && (0 <? min_list nl) && (last nl 0 =? 1)); [|discriminate].
  set (d := mkRun (map r_logl rows) (map r_theta rows) nl (Some (map r_lab rows)) (Some mms) None None) in *.
  unfold wlift in H. injection H as H Hw.
  assert (Hnl : length nl = length rows) by (unfold nl; rewrite nl_of_length, map_length; auto).
  assert (Hcols : logl r = map r_logl rows /\ theta r = map r_theta rows /\ nlive_array r = nl /\ output r = None /\ settings r = None).
  { unfold drop_bad_threads in H. destruct (check_ns_run_threads d) as [u|e]; [|destruct e]; inversion H; subst r; cbn; repeat split; auto. }
  destruct Hcols as (C1 & C2 & C3 & C4 & C5).
  exists bs, (map r_lab rows). rewrite C1, C2, C3, !map_length, Hnl.
  split; [congruence|]. split; [rewrite K1; auto|]. split; [rewrite K1; auto|]. split; auto. split.
  { intros i Hi Hf. unfold nl. rewrite (nl_nth _ rows i).
    - rewrite <- nth_logl by auto.
      assert (Hbl : forall b, In b bs -> (b < length (map r_logl sorted))%nat).
      { clear - B1. induction B1 as [|s b ss bs' Hb B1 IH]; intros x Hx; [destruct Hx|].
        destruct Hx as [<-|Hx]; [apply Hb|auto]. }
      pose proof (fold_bump_near (nth i (map r_logl rows) 0) (map r_logl sorted) bs sorted eq_refl Hbl) as Hds.
      fold rows in Hds. rewrite Hds.
      unfold sorted at 1. rewrite (dsum_perm _ _ (ts_rows specs)) by apply sort_rows_perm.
      rewrite ts_dsum by (apply specs_ok). rewrite Hn0, Hcn. change (ts_tmm specs) with mms.
      rewrite !zsum_b2z. rewrite <- K1. lia.
    - apply sorted_rows. auto.
    - auto.
    - intros j Hj. rewrite <- !nth_logl by lia. apply Hf; auto. }
  split.
  { rewrite <- key_combine, Hk. unfold sorted.
    apply (Permutation_trans (l' := map key (ts_rows specs))); [apply Permutation_map, sort_rows_perm|].
    rewrite specs_keys. apply Permutation_refl. }
  split; auto. split; auto. split; auto. split; auto.
  assert (Hv : check_ns_run_threads d = Ok tt <->
               valid_columns (map r_logl rows) (length rows) (length rows) (map r_lab rows)
                 (map (fun mm => ext_opt (fst mm)) mms) (map snd mms)).
  { rewrite (check_threads_ok d (map r_lab rows) mms eq_refl eq_refl). unfold valid_columns. cbn [logl d].
    rewrite !map_length. tauto. }
  cbv zeta. unfold drop_bad_threads in H. destruct (check_ns_run_threads d) as [[]|e] eqn:Hd.
  - inversion H; subst r. cbn [thread_labels thread_min_max d]. split; auto. intros Hn. exfalso. apply Hn, Hv. auto.
  - assert (e = AssertionError) as -> by (eapply threads_AE; eauto; reflexivity). inversion H; subst r.
    cbn [thread_labels thread_min_max]. split; auto. intros Hvv. apply Hv in Hvv. discriminate.
Qed.

(** assert_birth_point. *)
Theorem combine_assert : forall E (w : world E) s, In s (start_contours mms) ->
    occurs s (flat_map (fun x => logl (fst x)) specs) <> 1%nat ->
    combine_threads (map fst specs) true w = (Raise AssertionError, mkW (r_seed E 0) (w_warn w)).
Proof.
  intros E w s Hs Ho.
  assert (Hoc : occurs s (map r_logl (sort_rows E (ts_rows specs))) <> 1%nat).
  { rewrite <- specs_logl in Ho. unfold occurs in *.
    rewrite (proj1 (Permutation_count_occ Z.eq_dec _ _) (Permutation_map r_logl (sort_rows_perm E (ts_rows specs)))). auto. }
  destruct (combine_run E true w) as [(bs & _ & B2 & _)|(_ & _ & B3)]; auto.
  specialize (B2 eq_refl). rewrite Forall_forall in B2. exfalso. apply Hoc, B2. auto.
Qed.

(** Otherwise the generator is as it was, and only AssertionError is possible. *)
Theorem combine_outcome : forall E abp (w : world E),
    (abp = true -> forall s, In s (start_contours mms) -> occurs s (flat_map (fun x => logl (fst x)) specs) = 1%nat) ->
    (forall s, In s (start_contours mms) -> exists x, In x (flat_map (fun x => logl (fst x)) specs) /\ x < s) ->
    (exists r, combine_threads (map fst specs) abp w = (Ok r, w)) \/
    combine_threads (map fst specs) abp w = (Raise AssertionError, w).
Proof.
  intros E abp w Ho Hsa. destruct (combine_threads (map fst specs) abp w) as [[r|e] w'] eqn:H.
  - left. exists r. destruct (combine_starts E abp w r w' Hsa H) as (bs & labs & -> & _). auto.
  - right. destruct (combine_run E abp w) as [(bs & B1 & B2 & B3)|(-> & (s & S1 & S2) & B3)].
    + rewrite B3 in H. set (sorted := sort_rows E (ts_rows specs)) in *.
      set (rows := fold_left (fun l i => bump i l) bs sorted) in *.
      assert (Hk : map key rows = map key sorted) by apply fold_bump_key.
      destruct (keys_cols _ _ Hk) as (K1 & _ & _).
      assert (Hlg : Permutation (map r_logl rows) (map r_logl (ts_rows specs))).
      { rewrite K1. apply Permutation_map, sort_rows_perm. }
      assert (Hrne : rows <> []).
      { intros Hn. rewrite Hn in Hlg. simpl in Hlg. apply Permutation_nil in Hlg.
        apply map_eq_nil in Hlg. apply specs_rows; auto. }
      assert (Hsa' : starts_above mms (min_list (map r_logl rows))).
      { intros m e' Hin. destruct (Hsa m) as (x & X1 & X2).
        { clear - Hin. induction mms as [|[[|s] e2] t IH]; simpl in *; [destruct Hin| |].
          - apply IH. destruct Hin as [Hin|Hin]; [discriminate|auto].
          - destruct Hin as [Hin|Hin]; [inversion Hin; left; auto|right; auto]. }
        rewrite <- specs_logl in X1. apply (Permutation_in _ (Permutation_sym Hlg)) in X1.
        destruct (min_list_spec (map r_logl rows)) as [_ Hm]; [intros Hn; apply map_eq_nil in Hn; auto|].
        specialize (Hm _ X1). lia. }
      destruct (n_start_ninf rows mms Hsa') as [Hn0 Hdup].
      unfold wbind in H. rewrite dict_run in H by (auto; lia).
      destruct (_ && _); [|inversion H; auto].
      unfold wlift, drop_bad_threads in H.
      match type of H with (match check_ns_run_threads ?d with _ => _ end, _) = _ =>
        destruct (check_ns_run_threads d) as [u|e2] eqn:Hd end; [discriminate|].
      assert (e2 = AssertionError) as -> by (eapply threads_AE; eauto; reflexivity). discriminate.
    + exfalso. apply S2. specialize (Ho eq_refl s S1). rewrite <- Ho, <- specs_logl. unfold occurs.
      apply (proj1 (Permutation_count_occ Z.eq_dec _ _)). apply Permutation_map, sort_rows_perm.
Qed.
End Starts.
