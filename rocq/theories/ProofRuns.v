(** combine_ns_runs, combine_threads: C18 - C23. *)
From Verif Require Import Base ModelRun ModelData ProofBase ProofMonad Spec SpecRun
     ProofThreads ProofBirth ProofRun ProofProcess ProofDict ProofComb.

Definition key (x : row) : Z * (Z * list Z) := (r_logl x, (r_lab x, r_theta x)).

Lemma sort_rows_perm : forall E rows, Permutation (sort_rows E rows) rows.
Proof. intros. apply (sort_by_perm _ E row0 r_logl). Qed.
Lemma sort_rows_sorted : forall E rows, StronglySorted Z.le (map r_logl (sort_rows E rows)).
Proof. intros. apply (sort_by_sorted _ E row0 r_logl). Qed.

(** ** combine_ns_runs *)
Notation rspec := (run * list Z * list (ext * Z))%type.
Definition rs_run (x : rspec) : run := fst (fst x).
Definition rs_labs (x : rspec) : list Z := snd (fst x).
Definition rs_tmm (x : rspec) : list (ext * Z) := snd x.
Definition rs_ok (x : rspec) : Prop := complete_run (rs_run x) (rs_labs x) (rs_tmm x) /\ settings (rs_run x) = None.

Definition run_rows (x : rspec) : list row :=
  zip_rows (logl (rs_run x)) (rs_labs x) (diff (nlive_array (rs_run x)) ++ [-1]) (theta (rs_run x)).
Fixpoint all_rows (rs : list rspec) : list row :=
  match rs with
  | [] => []
  | x :: t => run_rows x ++ map (shift_row (Z.of_nat (length (rs_tmm x)))) (all_rows t)
  end.
Fixpoint relabelled (t : nat) (rs : list rspec) : list run :=
  match rs with
  | [] => []
  | x :: rest =>
      mkRun (logl (rs_run x)) (theta (rs_run x)) (nlive_array (rs_run x))
            (Some (map (Z.add (Z.of_nat t)) (rs_labs x))) (Some (rs_tmm x))
            (output (rs_run x)) (settings (rs_run x)) :: relabelled (t + length (rs_tmm x)) rest
  end.

Lemma relabel_spec : forall E rs t da dw (w : world E), (forall x, In x rs -> rs_ok x) ->
    relabel_runs t (map rs_run rs) da dw w = (Ok (relabelled t rs), w).
Proof.
  intros E rs. induction rs as [|x rest IH]; intros t da dw w H; auto.
  destruct (H x (or_introl eq_refl)) as [Hc Hset].
  destruct (complete_parts _ _ _ Hc) as (P1 & P2 & P3 & P4 & P5 & P6 & P7 & P8 & P9 & P10).
  cbn [map relabel_runs].
  destruct (check_ns_run_accepts E (rs_run x) da dw w) as (w1 & C1 & _ & C3).
  { split; auto. exists (rs_labs x), (rs_tmm x). apply Hc. }
  { auto. }
  rewrite C3 in C1 by auto. rewrite (wbind_run _ _ _ _ _ _ _ _ C1). rewrite P1, P2.
  rewrite (wbind_run _ _ _ _ _ _ _ _ (IH _ da dw w (fun y Hy => H y (or_intror Hy)))). auto.
Qed.

Lemma zip_shift : forall t ls labs dns ths,
    zip_rows ls (map (Z.add t) labs) dns ths = map (shift_row t) (zip_rows ls labs dns ths).
Proof.
  induction ls as [|l ls IH]; intros; auto. destruct labs, dns, ths; auto.
  cbn [map zip_rows]. rewrite IH. auto.
Qed.
Lemma shift_shift : forall a b rows, map (shift_row a) (map (shift_row b) rows) = map (shift_row (a + b)) rows.
Proof.
  intros. rewrite map_map. apply map_ext. intros. unfold shift_row. simpl. rewrite Z.add_assoc. auto.
Qed.

Lemma relabelled_rows : forall rs t, (forall x, In x rs -> rs_ok x) ->
    exists l, mapM array_given_run (relabelled t rs) = Ok l /\
              concat l = map (shift_row (Z.of_nat t)) (all_rows rs).
Proof.
  induction rs as [|x rest IH]; intros t H.
  - exists []. auto.
  - destruct (H x (or_introl eq_refl)) as [Hc Hset].
    destruct (complete_parts _ _ _ Hc) as (P1 & P2 & P3 & P4 & P5 & P6 & P7 & P8 & P9 & P10).
    destruct (IH (t + length (rs_tmm x))%nat) as (l & L1 & L2); [intros; apply H; right; auto|].
    cbn [relabelled mapM].
    erewrite array_given_valid; [|reflexivity|auto|simpl; rewrite map_length; auto|auto|auto].
    cbn [rbind]. rewrite L1. cbn [rbind].
    eexists. split; [reflexivity|]. cbn [concat all_rows]. rewrite L2, map_app, shift_shift. f_equal.
    + apply zip_shift.
    + rewrite Nat2Z.inj_add. auto.
Qed.

Lemma all_rows_spec : forall rs, (forall x, In x rs -> rs_ok x) ->
    tspec (all_rows rs) (flat_map rs_tmm rs) /\ balanced (all_rows rs) (flat_map rs_tmm rs) /\
    map r_logl (all_rows rs) = flat_map (fun x => logl (rs_run x)) rs.
Proof.
  induction rs as [|x rest IH]; intros H.
  - split; [|split; auto].
    + split; intros; [destruct H0|simpl in *; lia].
    + intros x. auto.
  - destruct (H x (or_introl eq_refl)) as [Hc Hset].
    destruct IH as (I1 & I2 & I3); [intros; apply H; right; auto|].
    assert (Hdn : length (diff (nlive_array (rs_run x)) ++ [-1]) = length (logl (rs_run x))).
    { destruct (complete_parts _ _ _ Hc) as (P1 & P2 & P3 & P4 & P5 & P6 & P7 & P8 & P9 & P10).
      rewrite app_length, diff_length, P3. destruct (logl (rs_run x)); [congruence|]. simpl; lia. }
    cbn [all_rows flat_map]. split; [|split].
    + apply tspec_app; auto. apply (complete_tspec _ _ _ Hc); auto.
    + intros y. rewrite dsum_app, dsum_shift, bal_app, I2. f_equal. apply complete_balanced; auto.
    + rewrite map_app, map_map. rewrite <- I3. f_equal.
      apply (rows_cols _ _ _ Hc); auto.
Qed.

Lemma keys_zip : forall t ls labs dns ths, length dns = length ls -> length labs = length ls ->
    map (fun '(l, (k, th)) => (l, (t + k, th))) (combine ls (combine labs ths)) =
    map key (map (shift_row t) (zip_rows ls labs dns ths)).
Proof.
  induction ls as [|l ls IH]; intros labs dns ths H1 H2; auto. destruct labs, dns; try discriminate.
  destruct ths; auto. cbn [map zip_rows combine]. erewrite IH; eauto.
Qed.

Lemma merged_rows : forall rs t, (forall x, In x rs -> rs_ok x) ->
    merged t rs = map key (map (shift_row (Z.of_nat t)) (all_rows rs)).
Proof.
  induction rs as [|[[r labs] tmm] rest IH]; intros t H; auto.
  destruct (H _ (or_introl eq_refl)) as [Hc Hset].
  destruct (complete_parts _ _ _ Hc) as (P1 & P2 & P3 & P4 & P5 & P6 & P7 & P8 & P9 & P10).
  cbn [merged all_rows]. rewrite IH by (intros; apply H; right; auto).
  rewrite !map_app, shift_shift, Nat2Z.inj_add. f_equal. unfold samples_of.
  apply keys_zip; unfold rs_labs, rs_run in *; simpl in *; auto.
  rewrite app_length, diff_length, P3. destruct (logl r); [congruence|]. simpl; lia.
Qed.

Lemma shift_0 : forall rows, map (shift_row 0) rows = rows.
Proof. induction rows as [|x t IH]; simpl; auto. rewrite IH. destruct x; auto. Qed.

Lemma keys_combine : forall rows,
    map key rows = combine (map r_logl rows) (combine (map r_lab rows) (map r_theta rows)).
Proof. induction rows; simpl; auto. rewrite IHrows. auto. Qed.

(** Rows in ascending order with distinct logls form a complete run. *)
Lemma rows_complete : forall rows tmm o, rows <> [] -> StronglySorted Z.le (map r_logl rows) ->
    NoDup (map r_logl rows) -> tspec rows tmm -> starts_above tmm (min_list (map r_logl rows)) ->
    (forall m e, In (Fin m, e) tmm -> In m (map r_logl rows)) ->
    complete_run (mkRun (map r_logl rows) (map r_theta rows)
                        (map (fun x => Z.of_nat (live_at tmm x)) (map r_logl rows))
                        (Some (map r_lab rows)) (Some tmm) o None) (map r_lab rows) tmm.
Proof.
  intros rows tmm o Hne Hs Hnd Ht Hsa Hst.
  split; [|split; [|split; [|split]]]; simpl; auto.
  - split; [auto|]. split; [auto|]. simpl. rewrite !map_length. apply tspec_columns; auto.
    eapply some_ninf; eauto.
  - intros k f Hk (F1 & F2 & _). rewrite map_length in F1. rewrite nth_lab in F2 by auto.
    rewrite nth_logl by auto. destruct Ht as [H1 _].
    destruct (H1 (nth f rows row0)) as (k' & K1 & K2 & K3 & K4); [apply nth_In; auto|].
    assert (k' = k) by lia. subst. auto.
  - intros i Hi. rewrite map_length in Hi.
    rewrite (map_nth_in _ _ _ 0 0) by (rewrite map_length; auto). auto.
Qed.

Lemma min_list_perm : forall l m, Permutation l m -> l <> [] -> min_list l = min_list m.
Proof.
  intros l m Hp Hne. assert (Hm : m <> []) by (intros ->; apply Permutation_sym, Permutation_nil in Hp; auto).
  destruct (min_list_spec l Hne) as [A1 A2]. destruct (min_list_spec m Hm) as [B1 B2].
  pose proof (A2 _ (Permutation_in _ (Permutation_sym Hp) B1)).
  pose proof (B2 _ (Permutation_in _ Hp A1)). lia.
Qed.

Theorem combine_runs_spec : forall E rs da dw (w : world E), (2 <= length rs)%nat ->
    (forall x, In x rs -> rs_ok x) ->
    NoDup (flat_map (fun x => logl (rs_run x)) rs) ->
    starts_above (flat_map rs_tmm rs) (min_list (flat_map (fun x => logl (rs_run x)) rs)) ->
    exists r labs, combine_ns_runs (map rs_run rs) da dw w = (Ok r, w) /\
      complete_run r labs (flat_map rs_tmm rs) /\ settings r = None /\
      Permutation (combine (logl r) (combine labs (theta r))) (merged 0 rs) /\
      output r = Some (mkOut (option_map ONum (sum_output o_nlike (map rs_run rs)))
                             (option_map ONum (sum_output o_ndead (map rs_run rs))) None []).
Proof.
  intros E rs da dw w Hlen Hok Hnd Hsa.
  destruct (all_rows_spec rs Hok) as (A1 & A2 & A3).
  pose proof (merged_rows rs 0 Hok) as Hmg. simpl Z.of_nat in Hmg. rewrite shift_0 in Hmg.
  destruct (relabelled_rows rs 0 Hok) as (l & L1 & L2). simpl Z.of_nat in L2. rewrite shift_0 in L2.
  assert (Htmm : flat_map get_tmm (relabelled 0 rs) = flat_map rs_tmm rs).
  { generalize 0%nat. clear. induction rs as [|x t IH]; intros; simpl; auto. rewrite IH. auto. }
  set (tmm := flat_map rs_tmm rs) in *.
  set (rows := sort_rows E (all_rows rs)).
  assert (Hp : Permutation rows (all_rows rs)) by apply sort_rows_perm.
  assert (Hlg : Permutation (map r_logl rows) (flat_map (fun x => logl (rs_run x)) rs)).
  { rewrite <- A3. apply Permutation_map. auto. }
  assert (Hne : rows <> []).
  { intros Hn. rewrite Hn in Hp. apply Permutation_nil in Hp.
    destruct rs as [|x rs']; [simpl in Hlen; lia|]. rewrite Hp in A3. simpl in A3.
    destruct (Hok x (or_introl eq_refl)) as [Hc _].
    destruct (complete_parts _ _ _ Hc) as (_ & _ & _ & _ & _ & _ & _ & _ & P9 & _).
    symmetry in A3. apply app_eq_nil in A3. tauto. }
  assert (Hnd' : NoDup (map r_logl rows)) by (eapply Permutation_NoDup; [symmetry; eauto|auto]).
  assert (Hs : StronglySorted Z.le (map r_logl rows)) by apply sort_rows_sorted.
  assert (Ht : tspec rows tmm) by (apply (tspec_perm (all_rows rs)); auto; symmetry; auto).
  assert (Hb : balanced rows tmm) by (apply (balanced_perm (all_rows rs)); auto; symmetry; auto).
  assert (Hsa' : starts_above tmm (min_list (map r_logl rows))).
  { erewrite min_list_perm; eauto. intros H; apply map_eq_nil in H; auto. }
  assert (Hst : forall m e, In (Fin m, e) tmm -> In m (map r_logl rows)).
  { intros m e Hin. apply in_flat_map in Hin as [x [Hx Hin]].
    destruct (Hok x Hx) as [(_ & _ & _ & S2 & _) _]. specialize (S2 m e Hin).
    apply (Permutation_in _ (Permutation_sym Hlg)). apply in_flat_map. eauto. }
  set (out := Some (mkOut (option_map ONum (sum_output o_nlike (map rs_run rs)))
                          (option_map ONum (sum_output o_ndead (map rs_run rs))) None [])).
  pose proof (rows_complete rows tmm out Hne Hs Hnd' Ht Hsa' Hst) as Hcomp.
  set (r := mkRun (map r_logl rows) (map r_theta rows)
                  (map (fun x => Z.of_nat (live_at tmm x)) (map r_logl rows))
                  (Some (map r_lab rows)) (Some tmm) out None) in *.
  exists r, (map r_lab rows). split; [|split; [|split; [|split]]]; auto.
  - destruct rs as [|x1 [|x2 rs']]; [simpl in Hlen; lia|simpl in Hlen; lia|].
    unfold combine_ns_runs. cbn [map].
    change (rs_run x1 :: rs_run x2 :: map rs_run rs') with (map rs_run (x1 :: x2 :: rs')).
    set (rs := x1 :: x2 :: rs') in *.
    rewrite (wbind_run _ _ _ _ _ _ _ _ (relabel_spec E rs 0 da dw w Hok)).
    rewrite Htmm, L1. unfold wlift at 1. unfold wbind at 1.
    rewrite L2. fold rows. fold tmm.
    rewrite (wbind_run _ _ _ _ _ _ _ _ (dict_complete E rows tmm w Hne Hs Hnd' Ht Hb Hsa')).
    fold out. unfold with_output at 1. cbn [logl theta nlive_array thread_labels thread_min_max settings].
    fold r.
    destruct (check_ns_run_accepts E r da dw w) as (w1 & C1 & _ & C3); auto.
    { split; auto. exists (map r_lab rows), tmm. apply Hcomp. }
    rewrite C3 in C1 by auto. rewrite (wbind_run _ _ _ _ _ _ _ _ C1). reflexivity.
  - unfold r. cbn [logl theta]. rewrite <- keys_combine, Hmg. apply Permutation_map. auto.
Qed.

(** C21 *)
Lemma dict_rng : forall E rows tmm (w : world E) r w',
    dict_given_run_array rows tmm w = (Ok r, w') -> w_rng w' = w_rng w.
Proof.
  intros E rows tmm w r w'. unfold dict_given_run_array. destruct rows; [discriminate|].
  cbv zeta. intros H.
  apply wbind_Ok in H as (u1 & w1 & A1 & H). apply wbind_Ok in H as (u2 & w2 & A2 & H).
  apply wbind_Ok in H as (u3 & w3 & A3 & H). apply wbind_Ok in H as (u4 & w4 & A4 & H).
  apply wassert_Ok in A1 as [_ ->]. apply wassert_Ok in A3 as [_ ->]. apply wassert_Ok in A4 as [_ ->].
  inversion H; subst.
  match type of A2 with (if ?b then _ else _) _ = _ => destruct b end; inversion A2; auto.
Qed.
Theorem combine_runs_valid : forall E runs da dw (w : world E) r w',
    combine_ns_runs runs da dw w = (Ok r, w') ->
    valid_run r /\ (da = true -> NoDup (logl r)) /\ (forall r0, runs = [r0] -> r = r0) /\
    w_rng w' = w_rng w.
Proof.
  intros E runs da dw w r w' H. unfold combine_ns_runs in H.
  assert (Hdict : forall rows tmm w r w', dict_given_run_array (E := E) rows tmm w = (Ok r, w') ->
                    w_rng w' = w_rng w).
  { clear. intros. eapply dict_rng; eauto. }
  assert (Hrel : forall runs t w l w', relabel_runs (E := E) t runs da dw w = (Ok l, w') -> w_rng w' = w_rng w).
  { clear. induction runs as [|x t IH]; simpl; intros tt0 w l w' H; [inversion H; auto|].
    apply wbind_Ok in H as (u & w1 & H1 & H).
    pose proof (check_ns_run_spec E x da dw w) as Hc. rewrite H1 in Hc.
    destruct (thread_labels x), (thread_min_max x); try discriminate.
    apply wbind_Ok in H as (l' & w2 & H2 & H). inversion H; subst.
    apply IH in H2. destruct Hc as (_ & _ & Hc & _). congruence. }
  destruct runs as [|r1 [|r2 rest]].
  - discriminate.
  - apply wbind_Ok in H as (u & w1 & H1 & H). inversion H; subst.
    pose proof (check_ns_run_spec E r da dw w) as Hc. rewrite H1 in Hc.
    destruct Hc as (C1 & C2 & C3 & _). split; auto. split; auto. split; auto.
    intros r0 Hr. inversion Hr; auto.
  - apply wbind_Ok in H as (l & w1 & H1 & H). apply wbind_Ok in H as (s & w2 & H2 & H).
    apply wbind_Ok in H as (d & w3 & H3 & H). apply wbind_Ok in H as (u & w4 & H4 & H).
    inversion H; subst. inversion H2; subst.
    match type of H4 with check_ns_run ?x _ _ _ = _ => pose proof (check_ns_run_spec E x da dw w3) as Hc end.
    rewrite H4 in Hc. destruct Hc as (C1 & C2 & C3 & _).
    split; auto. split; auto. split; [intros r0 Hr; inversion Hr|].
    apply Hdict in H3. apply Hrel in H1. congruence.
Qed.

(** C22 *)
Lemma sum_output_all : forall get runs vs,
    Forall2 (fun r v => exists o, output r = Some o /\ get o = Some v) runs vs ->
    sum_output get runs = Some (zsum (map total vs)).
Proof.
  intros get runs vs H. induction H as [|r v runs vs [o [H1 H2]] HF IH]; auto.
  simpl. rewrite H1, H2, IH. destruct v; auto.
Qed.
Lemma sum_output_missing : forall get runs r, In r runs ->
    (forall o, output r = Some o -> get o = None) -> sum_output get runs = None.
Proof.
  induction runs as [|r' t IH]; intros r Hr H; [destruct Hr|]. destruct Hr as [->|Hin]; simpl.
  - destruct (output r); auto. rewrite (H o eq_refl). auto.
  - destruct (output r'); auto. rewrite (IH r Hin H). destruct (get o); auto.
Qed.

Lemma dict_output : forall E rows tmm (w : world E) r w',
    dict_given_run_array rows tmm w = (Ok r, w') -> output r = None /\ settings r = None.
Proof.
  intros E rows tmm w r w'. unfold dict_given_run_array. destruct rows; [discriminate|].
  cbv zeta. intros H. repeat (apply wbind_Ok in H as (? & ? & ? & H)). inversion H; auto.
Qed.
Theorem combine_runs_output : forall E runs da dw (w : world E) r w', (2 <= length runs)%nat ->
    combine_ns_runs runs da dw w = (Ok r, w') ->
    output r = Some (mkOut (option_map ONum (sum_output o_nlike runs))
                           (option_map ONum (sum_output o_ndead runs)) None []).
Proof.
  intros E runs da dw w r w' Hlen H. unfold combine_ns_runs in H.
  destruct runs as [|r1 [|r2 rest]]; [simpl in Hlen; lia|simpl in Hlen; lia|].
  apply wbind_Ok in H as (l & w1 & H1 & H). apply wbind_Ok in H as (s & w2 & H2 & H).
  apply wbind_Ok in H as (d & w3 & H3 & H). apply wbind_Ok in H as (u & w4 & H4 & H).
  inversion H; subst. auto.
Qed.
