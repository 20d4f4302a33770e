(** C69, C70: when the plotting functions succeed. *)
From Coq Require Import Lra.
From Verif Require Import Base ModelRun ModelBoot ModelReal ModelStats ModelPlots Envs Spec SpecRun SpecReal
                          ProofBase ProofMonad ProofDet ProofBoot ProofThreads ProofRun ProofReal ProofStats PropCombine PropBoot PropKde PropPlots.
Local Open Scope R_scope.

(** A static run: consistent, with all threads from -inf, logls which increase
    along each thread, and a positive number of live points. *)
Definition static_run (r : run) : Prop :=
  (forall n, In n (nlive_array r) -> (0 < n)%Z) /\
  exists labs tmm, consistent r labs tmm /\
    (forall m e, ~ In (Fin m, e) tmm) /\
    (forall i j, (i < j < length (logl r))%nat -> nth i labs 0%Z = nth j labs 0%Z ->
                 (nth i (logl r) 0 < nth j (logl r) 0)%Z).
(** A function defined on every array, with a value for every sample. *)
Definition total (f : quantity) : Prop := forall th, exists v, f th = Ok v /\ length v = length th.

(** [m] succeeds from every world, with a result in [P]. *)
Definition succeeds {E A} (P : A -> Prop) (m : W E A) : Prop :=
  forall w, exists x w', m w = (Ok x, w') /\ P x.
Lemma succeeds_bind : forall E A B (P : A -> Prop) (Q : B -> Prop) (m : W E A) f,
    succeeds P m -> (forall x, P x -> succeeds Q (f x)) -> succeeds Q (wbind m f).
Proof.
  intros E A B P Q m f Hm Hf w. destruct (Hm w) as (x & w' & H & Hx). unfold wbind. rewrite H. apply Hf; auto.
Qed.
Lemma succeeds_ret : forall E A (P : A -> Prop) x, P x -> succeeds (E := E) P (wret x).
Proof. intros E A P x H w. exists x, w. auto. Qed.
Lemma succeeds_lift : forall E A (P : A -> Prop) m, (exists x, m = Ok x /\ P x) -> succeeds (E := E) P (wlift m).
Proof. intros E A P m (x & -> & H) w. exists x, w. auto. Qed.
Lemma succeeds_assert : forall E b, b = true -> succeeds (E := E) (fun _ => True) (wassert b).
Proof. intros E b -> w. exists tt, w. auto. Qed.
Lemma succeeds_mapM : forall E A B (P : B -> Prop) (f : A -> W E B) l,
    (forall x, In x l -> succeeds P (f x)) -> succeeds (fun ys => length ys = length l /\ Forall P ys) (wmapM f l).
Proof.
  induction l as [|x l IH]; intros H; cbn [wmapM]; [apply succeeds_ret; auto|].
  eapply succeeds_bind; [apply H; left; auto|]. intros y Hy.
  eapply succeeds_bind; [apply IH; intros; apply H; right; auto|]. intros ys (Hl & Hys).
  apply succeeds_ret. split; [cbn; lia|constructor; auto].
Qed.

Lemma consistent_lengths : forall r labs tmm, consistent r labs tmm ->
    logl r <> [] /\ length (theta r) = length (logl r) /\ length (nlive_array r) = length (logl r).
Proof.
  intros r labs tmm (_ & _ & H1 & H2 & H3 & _ & H4 & H5 & H6 & _). repeat split; auto.
  intros He. rewrite He in H2. destruct labs; [|discriminate].
  rewrite !map_length in *. destruct tmm; [destruct H6|]. cbn in H5.
  destruct (proj2 (H5 0%Z)); lia.
Qed.

Lemma w_rel_ok : forall r, logl r <> [] -> length (nlive_array r) = length (logl r) ->
    (forall n, In n (nlive_array r) -> (0 < n)%Z) ->
    exists w, get_w_rel r None = Ok w /\ length w = length (logl r).
Proof.
  intros r Hn Hl Hp. assert (Hn' : nlive_array r <> []) by (intros He; rewrite He in Hl; destruct (logl r); [congruence|discriminate]).
  unfold get_w_rel. unfold get_logw. rewrite get_logx_run by auto. cbn [rbind].
  rewrite cumsum_length, logx_steps_length, map_length, Hl, Nat.eqb_refl by exact I.
  destruct (Nat.eqb_spec (length (logl r)) 1) as [H1|H1]; cbn [rbind]; eexists; (split; [reflexivity|]).
  - rewrite rel_length, map_length. auto.
  - rewrite rel_length, map2_length, map_length.
    assert (Ht : length (trapezium (cumsum (logx_steps (nlive_array r) None))) = length (logl r)).
    { rewrite <- (map_length exp), exp_trapezium.
      - rewrite volumes_length; rewrite map_length, cumsum_length, logx_steps_length by exact I; [auto|].
        destruct (logl r) as [|? [|? ?]]; cbn [length] in *; try lia; congruence.
      - rewrite cumsum_length, logx_steps_length by exact I.
        destruct (logl r) as [|? [|? ?]]; cbn [length] in *; try lia; congruence.
      - eapply (logx_facts (nlive_array r) None); [apply get_logx_run; auto|exact I].
      - intros i j. rewrite cumsum_length, logx_steps_length by exact I.
        eapply (logx_facts (nlive_array r) None); [apply get_logx_run; auto|exact I]. }
    rewrite Ht. apply Nat.min_id.
Qed.

Lemma static_w_rel : forall r, static_run r -> exists w, get_w_rel r None = Ok w /\ length w = length (theta r).
Proof.
  intros r (Hp & labs & tmm & Hc & _). destruct (consistent_lengths _ _ _ Hc) as (H1 & H2 & H3). rewrite H2.
  apply w_rel_ok; auto.
Qed.
Lemma means_ok : forall r fs, static_run r -> Forall total fs -> exists v, means_of r fs = Ok v.
Proof.
  intros r fs Hr Hf. unfold means_of. destruct (static_w_rel r Hr) as (w & -> & Hl). cbn [rbind].
  apply mapM_exists. intros f Hin. rewrite Forall_forall in Hf. destruct (Hf f Hin (theta r)) as (v & -> & Hv).
  cbn [rbind]. rewrite Hv, Hl, Nat.eqb_refl. eexists. reflexivity.
Qed.
Lemma arrays_ok : forall bs f, bs <> [] -> Forall (fun p => length (snd p) = length (fst p)) bs -> total f ->
    exists arr, samples_array bs f = Ok arr.
Proof.
  intros bs f Hn Hb Hf. unfold samples_array. set (width := (2 * _)%nat). destruct bs as [|b0 bs]; [congruence|].
  apply mapM_exists. intros p Hp. rewrite Forall_forall in Hb. specialize (Hb p Hp).
  destruct (Hf (fst p)) as (v & -> & Hv). cbn [rbind]. unfold sample_row. rewrite map_length, Hb, Hv, Nat.eqb_refl.
  eexists. reflexivity.
Qed.

Lemma bs_sample_ok : forall E r labs tmm, static_run r -> consistent r labs tmm ->
    succeeds (E := E) (fun p => length (snd p) = length (fst p))
      (bs_sample r (map (fun k => nth_thread r labs (Z.of_nat k) (nth k tmm (NInf, 0%Z))) (seq 0 (length tmm)))).
Proof.
  intros E r labs tmm (Hp & labs' & tmm' & Hc & Hs & Hst) Hc' w.
  assert (labs' = labs /\ tmm' = tmm) as [-> ->].
  { destruct Hc as (A1 & A2 & _), Hc' as (B1 & B2 & _). split; congruence. }
  destruct (C25_bootstrap_static E r labs tmm BKeep w I Hc Hs Hst)
    as (Hli & Hi & rr & Hb & Hperm & _ & Hth & Hnl & _ & _ & _ & _ & Hpos & _).
  set (inds := fst (draw_seq E (length tmm) (length tmm) (seeded_state BKeep (w_rng w)))) in *.
  rewrite (boot_given E r labs tmm) in Hb by auto. unfold bs_sample, wbind. rewrite Hb.
  destruct (w_rel_ok rr) as (wt & Hw & Hlw); auto.
  - intros He. assert (Hne : flat_map (fun i => samples_of_thread r labs (Z.of_nat i)) inds <> []).
    { destruct inds as [|i inds].
      - pose proof (consistent_threads _ _ _ Hc). cbn in Hli. lia.
      - destruct (C61_get_run_threads E r labs tmm w Hc) as (ths & _ & _ & Hth').
        destruct (Hth' i) as (th & _ & H1 & H2 & H3 & _); [apply Hi; left; auto|].
        cbn [flat_map]. intros Hnil. apply app_eq_nil in Hnil as [Hnil _]. rewrite <- H1 in Hnil.
        destruct (logl th), (theta th); cbn in *; congruence. }
    rewrite He in Hperm. cbn [combine] in Hperm. apply Permutation_nil in Hperm. contradiction.
  - intros n Hn. specialize (Hpos n Hn). lia.
  - unfold wlift. rewrite Hw. exists (theta rr, wt). eexists. split; [reflexivity|]. cbn [fst snd]. congruence.
Qed.

Lemma bs_dists_ok : forall E r fs nlims n mc, static_run r -> Forall total fs -> fs <> [] ->
    nlims = length fs -> (0 < n)%nat -> succeeds (E := E) (fun _ => True) (plot_bs_dists r fs (length fs) nlims n mc).
Proof.
  intros E r fs nlims n mc Hr Hf Hfs -> Hn. unfold plot_bs_dists. assert (Hr' := Hr). destruct Hr' as (Hp & labs & tmm & Hc & Hst).
  eapply succeeds_bind; [apply succeeds_assert, Nat.eqb_refl|intros _ _].
  eapply succeeds_bind; [apply succeeds_assert, Nat.eqb_refl|intros _ _].
  eapply (succeeds_bind _ _ _ (fun ths => ths = map (fun k => nth_thread r labs (Z.of_nat k) (nth k tmm (NInf, 0%Z))) (seq 0 (length tmm)))).
  { intros w. do 2 eexists. split; [apply get_run_threads_spec; eauto|reflexivity]. }
  intros ths ->.
  eapply succeeds_bind; [apply succeeds_mapM; intros; apply bs_sample_ok; auto|]. intros bs (Hl & Hbs).
  rewrite seq_length in Hl.
  eapply (succeeds_bind _ _ _ (fun _ => True)).
  { apply succeeds_lift. destruct (mapM_exists _ _ (samples_array bs) fs) as (arr & Ha); [|exists arr; auto].
    intros f Hin. apply arrays_ok; auto; [destruct bs; [cbn in Hl; lia|discriminate]|]. rewrite Forall_forall in Hf; auto. }
  intros arr _.
  eapply (succeeds_bind _ _ _ (fun _ => True)).
  { destruct mc; [|apply succeeds_ret; auto]. apply succeeds_lift. destruct (means_ok r fs Hr Hf) as (v & ->). eauto. }
  intros ms _. destruct fs; [congruence|apply succeeds_ret; auto].
Qed.

(** ** C69 *)

Lemma in_rev_enum : forall (runs : list run) k r, In (k, r) (rev (combine (seq 0 (length runs)) runs)) ->
    (k < length runs)%nat /\ In r runs.
Proof.
  intros runs k r H. apply in_rev in H. split.
  - apply in_combine_l in H. apply in_seq in H. lia.
  - eapply in_combine_r; eauto.
Qed.

(** Up to five static runs can be plotted. *)
Theorem C69_bs_param_dists_ok : forall E runs fthetas n_simulate random_seed (fresh : rst E) w,
    (1 <= length runs <= 5)%nat -> Forall static_run runs -> fthetas <> [] -> Forall total fthetas -> (0 < n_simulate)%nat ->
    valid_seed random_seed ->
    exists out w', bs_param_dists runs fthetas (length fthetas) (length fthetas) n_simulate random_seed fresh w = (Ok out, w') /\
      length out = length runs /\ w_rng w' = w_rng w.
Proof.
  intros E runs fs n rs fresh w Hl Hr Hfs Hf Hn Hrs.
  assert (H : succeeds (fun out => length out = length runs)
                (bs_param_dists runs fs (length fs) (length fs) n rs fresh)).
  { unfold bs_param_dists. eapply (succeeds_bind _ _ _ (fun _ => True)).
    { intros v. do 2 eexists. split; [reflexivity|auto]. } intros st _.
    eapply (succeeds_bind _ _ _ (fun _ => True)).
    { intros v. do 2 eexists. split; [apply seed_with_run; auto|auto]. } intros _ _.
    eapply succeeds_bind; [apply succeeds_assert, Nat.eqb_refl|intros _ _].
    eapply (succeeds_bind _ _ _ (fun _ => True)).
    { apply succeeds_lift. exists tt. destruct runs; [cbn in Hl; lia|]. destruct fs; [congruence|].
      cbn [length]. rewrite Nat.add_succ_r. auto. } intros _ _.
    eapply succeeds_bind.
    { apply (succeeds_mapM _ _ _ (fun _ => True)). intros [k r] Hin. apply in_rev_enum in Hin as (Hk & Hin).
      eapply (succeeds_bind _ _ _ (fun _ => True)).
      - apply succeeds_lift. exists tt. unfold in_range. destruct (Nat.ltb_spec k 5); [auto|lia].
      - intros _ _. rewrite Forall_forall in Hr. apply bs_dists_ok; auto. }
    intros out (Hlo & _). rewrite rev_length, combine_length, seq_length, Nat.min_id in Hlo.
    eapply (succeeds_bind _ _ _ (fun _ => True)).
    { intros v. do 2 eexists. split; [reflexivity|auto]. } intros _ _. apply succeeds_ret. auto. }
  destruct (H w) as (out & w' & Ho & Hlo). exists out, w'. split; [auto|]. split; [auto|].
  eapply (proj1 (C55_bs_param_dists E runs fs (length fs) (length fs) n rs fresh)). eauto.
Qed.

(** With more than five the colormaps run out: IndexError, and the random
    generator stays seeded. *)
Theorem C69_bs_param_dists_six : forall E runs fthetas nlims n_simulate z (fresh : rst E) w,
    (0 <= z < 4294967296)%Z -> (5 < length runs)%nat ->
    bs_param_dists runs fthetas (length fthetas) nlims n_simulate (Some z) fresh w =
    (Raise IndexError, mkW (r_seed E z) (w_warn w)).
Proof.
  intros E runs fs nlims n z fresh w Hz Hl. unfold bs_param_dists. unfold wbind at 1, get_state. unfold wbind at 1.
  rewrite seed_with_run by (intros y Hy; injection Hy as <-; auto). unfold wbind at 1, wassert, wlift. rewrite Nat.eqb_refl. cbn [assertb].
  unfold wbind at 1. replace (row_of_axes (length runs + length fs)) with (Ok tt)
    by (destruct runs as [|r1 [|r2 rs]]; [cbn in Hl; lia|cbn in Hl; lia|reflexivity]).
  destruct (rev (combine (seq 0 (length runs)) runs)) as [|[k r] l] eqn:He.
  - apply (f_equal (@length _)) in He. rewrite rev_length, combine_length, seq_length, Nat.min_id in He. cbn in He. lia.
  - assert (Hk : k = (length runs - 1)%nat).
    { clear Hz. assert (Hz : nth_error (rev (combine (seq 0 (length runs)) runs)) 0 = Some (k, r)) by (rewrite He; auto).
      set (L := combine (seq 0 (length runs)) runs) in *.
      assert (HL : length L = length runs) by (unfold L; rewrite combine_length, seq_length, Nat.min_id; auto).
      apply (nth_error_nth _ _ (0%nat, r)) in Hz. rewrite rev_nth in Hz by (rewrite HL; lia).
      rewrite HL in Hz. unfold L in Hz. rewrite combine_nth in Hz by (rewrite seq_length; auto).
      rewrite seq_nth in Hz by lia. injection Hz as <- _. lia. }
    cbn [wmapM]. unfold wbind. unfold in_range. destruct (Nat.ltb_spec k 5); [lia|]. reflexivity.
Qed.

(** One subplot is not an array of subplots. *)
Theorem C69_single_subplot : forall E runs fthetas nlims n_simulate z (fresh : rst E) w,
    (0 <= z < 4294967296)%Z -> (length runs + length fthetas <= 1)%nat ->
    bs_param_dists runs fthetas (length fthetas) nlims n_simulate (Some z) fresh w =
    (Raise (if (length runs + length fthetas =? 0)%nat then ValueError else TypeError), mkW (r_seed E z) (w_warn w)).
Proof.
  intros E runs fs nlims n z fresh w Hz Hl. unfold bs_param_dists, wbind, get_state, wassert, wlift.
  rewrite seed_with_run by (intros y Hy; injection Hy as <-; auto).
  rewrite Nat.eqb_refl. cbn [assertb]. destruct (length runs + length fs)%nat as [|[|k]]; [reflexivity|reflexivity|lia].
Qed.
Print Assumptions C69_single_subplot.

(** Without replications there is nothing to plot: ValueError. *)
Theorem C69_no_replications : forall E r labs tmm fthetas mean_color (w : world E),
    consistent r labs tmm -> fthetas <> [] ->
    plot_bs_dists r fthetas (length fthetas) (length fthetas) 0 mean_color w = (Raise ValueError, w).
Proof.
  intros E r labs tmm fs mc w Hc Hfs. unfold plot_bs_dists.
  unfold wassert. rewrite Nat.eqb_refl. cbn [assertb]. unfold wbind at 1, wlift at 1. unfold wbind at 1, wlift at 1.
  rewrite (wbind_run _ _ _ _ _ _ _ _ (get_run_threads_spec E r labs tmm w Hc)).
  destruct fs; [congruence|]. reflexivity.
Qed.
Print Assumptions C69_no_replications.

(** ** C70 *)
Section Diagram.
  Context {E : env} (U : uniforms E) (HU : forall n s, length (fst (U n s)) = n).

  Lemma random_ok : forall n, succeeds (fun us => length us = n) (random U n).
  Proof.
    intros n w. unfold random. specialize (HU n (w_rng w)). destruct (U n (w_rng w)) as [us s]. do 2 eexists.
    split; [reflexivity|auto].
  Qed.
  Lemma static_logx : forall r, static_run r -> exists logx, get_logx (nlive_array r) None = Ok logx /\ length logx = length (logl r).
  Proof.
    intros r (Hp & labs & tmm & Hc & _). destruct (consistent_lengths _ _ _ Hc) as (H1 & _ & H3).
    exists (cumsum (logx_steps (nlive_array r) None)). split.
    - apply get_logx_run; auto. intros He. rewrite He in H3. destruct (logl r); [congruence|discriminate].
    - rewrite cumsum_length, logx_steps_length by exact I. auto.
  Qed.
  Lemma weight_row_ok : forall r, static_run r -> succeeds (fun _ => True) (weight_row U r).
  Proof.
    intros r Hr. unfold weight_row. eapply (succeeds_bind _ _ _ (fun _ => True)).
    { apply succeeds_lift. destruct (static_logx r Hr) as (x & H & _). eauto. } intros _ _.
    eapply succeeds_bind; [apply random_ok|]. intros us Hus.
    destruct Hr as (Hp & labs & tmm & Hc & _). destruct (consistent_lengths _ _ _ Hc) as (H1 & _ & H3).
    eapply (succeeds_bind _ _ _ (fun lx => length lx = length (logl r))).
    { apply succeeds_lift. eexists. split.
      - apply get_logx_run; auto. intros He. rewrite He in H3. destruct (logl r); [congruence|discriminate].
      - rewrite cumsum_length. unfold logx_steps. rewrite map2_length, Hus, H3. apply Nat.min_id. }
    intros lx Hlx. cbv zeta. rewrite rev_length, Hlx, Nat.eqb_refl. cbn [negb]. apply succeeds_ret. auto.
  Qed.

  Lemma plot_run_ok : forall fs o rs fresh lim st k r, static_run r -> Forall total fs -> fs <> [] ->
      o_nlims o = length fs -> (0 < o_nsim o)%nat -> 0 < o_thin o <= 1 ->
      (k < 3)%nat -> (k < o_ncolors o)%nat -> (k < o_ncolormaps o)%nat -> valid_seed rs ->
      succeeds (fun _ => True) (plot_run U fs o rs fresh lim st k r).
  Proof.
    intros fs o rs fresh lim st k r Hr Hf Hfs Hlim Hn Ht Hk Hcol Hmap Hrs. unfold plot_run.
    eapply succeeds_bind; [apply succeeds_mapM; intros; apply weight_row_ok; auto|]. intros rows (Hl & _).
    rewrite seq_length in Hl.
    eapply (succeeds_bind _ _ _ (fun _ => True)).
    { destruct lim, rows; try (apply succeeds_ret; auto). cbn in Hl. lia. } intros lim' _.
    assert (Hrange : forall n, (k < n)%nat -> succeeds (E := E) (fun _ => True) (wlift (in_range k n))).
    { intros n Hkn. apply succeeds_lift. exists tt. unfold in_range. destruct (Nat.ltb_spec k n); [auto|lia]. }
    eapply succeeds_bind; [apply Hrange; auto|]. intros _ _.
    eapply succeeds_bind; [apply succeeds_lift, static_logx; auto|]. intros logx Hlx.
    eapply (succeeds_bind _ _ _ (fun _ => True)).
    { destruct (Req_EM_T (o_thin o) 1); [apply succeeds_ret; auto|].
      eapply succeeds_bind.
      { apply succeeds_assert. unfold negative, nonzero, le_thin.
        destruct (Rlt_dec (o_thin o) 0); [lra|]. destruct (Req_EM_T (o_thin o) 0); [lra|].
        destruct (Rle_dec (o_thin o) 1); [auto|lra]. } intros _ _.
      eapply (succeeds_bind _ _ _ (fun _ => True)); [intros v; do 2 eexists; split; [reflexivity|auto]|]. intros s _.
      eapply (succeeds_bind _ _ _ (fun _ => True)); [intros v; do 2 eexists; split; [apply seed_with_run; auto|auto]|]. intros _ _.
      eapply succeeds_bind; [apply random_ok|]. intros us _. cbv zeta.
      eapply (succeeds_bind _ _ _ (fun _ => True)); [intros v; do 2 eexists; split; [reflexivity|auto]|]. intros _ _.
      apply succeeds_ret. auto. }
    intros [[sx sth] st'] _.
    assert (Hq : forall f th, In f fs -> succeeds (E := E) (fun _ => True) (wlift (f th))).
    { intros f th Hin. apply succeeds_lift. rewrite Forall_forall in Hf. destruct (Hf f Hin th) as (v & Hv & _). eauto. }
    eapply succeeds_bind.
    { apply (succeeds_mapM _ _ _ (fun _ => True)). intros f Hin.
      eapply succeeds_bind; [apply Hq; auto|]. intros v _.
      eapply succeeds_bind; [apply Hrange; auto|]. intros _ _.
      eapply succeeds_bind; [|intros; apply succeeds_ret; auto].
      apply (succeeds_mapM _ _ _ (fun _ => True)). intros i _.
      destruct Hr as (_ & labs & tmm & (-> & _) & _).
      eapply (succeeds_bind _ _ _ (fun _ => True)); [apply succeeds_ret; auto|]. intros l _. cbv zeta.
      eapply succeeds_bind; [apply Hq; auto|]. intros tv _.
      eapply succeeds_bind; [apply Hrange; auto|]. intros _ _. apply succeeds_ret. auto. }
    intros sct _. cbv zeta.
    eapply succeeds_bind; [apply Hrange; destruct (o_means o); lia|]. intros _ _.
    eapply succeeds_bind; [apply bs_dists_ok; auto|]. intros d _.
    eapply (succeeds_bind _ _ _ (fun _ => True)).
    { destruct (o_means o); [|apply succeeds_ret; auto]. apply succeeds_lift.
      destruct (means_ok r fs Hr Hf) as (v & ->). eauto. }
    intros m _. apply succeeds_ret. auto.
  Qed.

  (** Up to three static runs can be plotted. *)
Theorem C70_param_logx_diagram_ok : forall runs fthetas o random_seed fresh w,
      (1 <= length runs <= 3)%nat -> Forall static_run runs -> fthetas <> [] -> Forall total fthetas ->
      o_nlabels o = length fthetas -> o_nlims o = length fthetas -> (0 < o_nsim o)%nat -> 0 < o_thin o <= 1 ->
      (length runs <= o_ncolors o)%nat -> (length runs <= o_ncolormaps o)%nat -> valid_seed random_seed ->
      exists out w', param_logx_diagram U runs fthetas o random_seed fresh w = (Ok out, w') /\ length out = length runs.
  Proof.
    intros runs fs o rs fresh w Hl Hr Hfs Hf Hlab Hlim Hn Ht Hcol Hmap Hrs.
    rewrite diagram_run by (auto; intros ->; cbn in Hl; lia). rewrite Hlab, Hlim, Nat.eqb_refl. cbn [andb].
    set (s := match rs with Some z => _ | None => _ end).
    assert (H : forall l acc st, (forall k r, In (k, r) l -> (k < length runs)%nat /\ In r runs) ->
      succeeds (fun p => length (fst p) = (length acc + length l)%nat)
        (wfoldM (fun '(acc, st) '(nrun, r) =>
                        let* p := plot_run U fs o rs fresh (limit_before o acc) st nrun r in
                        wret (acc ++ [fst p], snd p)) l (acc, st))).
    { induction l as [|[k r] l IH]; intros acc st Hin; cbn [wfoldM].
      - apply succeeds_ret. cbn. lia.
      - destruct (Hin k r (or_introl eq_refl)) as (Hk & Hir). rewrite Forall_forall in Hr.
        eapply (succeeds_bind _ _ _ (fun p => length (fst p) = S (length acc))).
        + eapply succeeds_bind; [apply plot_run_ok; auto; try lia; rewrite Forall_forall; auto|]. 
          intros p _. apply succeeds_ret. cbn [fst]. rewrite app_length. cbn. lia.
        + intros [acc' st'] Ha. cbn [fst] in Ha. intros v. destruct (IH acc' st') with (w := v) as (x & v' & H1 & H2).
          * intros; apply Hin; right; auto.
          * exists x, v'. split; auto. cbn [length]. lia. }
    unfold loop.
    destruct (H (rev (combine (seq 0 (length runs)) runs)) [] (w_rng w)) with (w := mkW s (w_warn w)) as ([out st] & w' & H1 & H2).
    { intros; apply in_rev_enum; auto. }
    rewrite H1. do 2 eexists. split; [reflexivity|]. cbn [fst] in H2. rewrite H2. cbn [length].
    rewrite rev_length, combine_length, seq_length, Nat.min_id. auto.
  Qed.
End Diagram.

(** Without simulations of the weights the lower limit of log X must be given:
    otherwise ValueError, and the random generator stays seeded. *)
Theorem C70_no_simulations : forall E (U : uniforms E) runs fthetas o z fresh w, (0 <= z < 4294967296)%Z ->
    runs <> [] -> fthetas <> [] -> o_nlabels o = length fthetas -> o_nlims o = length fthetas ->
    o_nsim o = 0%nat -> o_logx_min o = None ->
    param_logx_diagram U runs fthetas o (Some z) fresh w = (Raise ValueError, mkW (r_seed E z) (w_warn w)).
Proof.
  intros E U runs fs o z fresh w Hz Hr Hf H1 H2 H3 H4. rewrite diagram_run by (auto; intros y Hy; injection Hy as <-; auto).
  rewrite H1, H2, Nat.eqb_refl. cbn [andb]. unfold loop.
  destruct (rev (combine (seq 0 (length runs)) runs)) as [|[k r] l] eqn:He.
  - apply (f_equal (@length _)) in He. rewrite rev_length, combine_length, seq_length, Nat.min_id in He.
    destruct runs; [congruence|discriminate].
  - cbn [wfoldM]. unfold wbind, plot_run, limit_before. rewrite H3, H4. reflexivity.
Qed.
Print Assumptions C70_no_simulations.

(** Without quantities or without runs it fails as well. *)
Theorem C70_nothing_to_plot : forall E (U : uniforms E) runs fthetas o z fresh w, (0 <= z < 4294967296)%Z ->
    o_nlabels o = length fthetas -> o_nlims o = length fthetas -> runs = [] \/ fthetas = [] ->
    param_logx_diagram U runs fthetas o (Some z) fresh w =
    (Raise (match fthetas with [] => IndexError | _ => NameError end), mkW (r_seed E z) (w_warn w)).
Proof.
  intros E U runs fs o z fresh w Hz H1 H2 H.
  assert (Hrs : valid_seed (Some z)) by (intros y Hy; injection Hy as <-; auto). destruct fs as [|f fs].
  - rewrite diagram_none by auto. rewrite H1, H2. reflexivity.
  - destruct H as [->|H]; [|discriminate]. unfold param_logx_diagram, wbind, get_state, wassert, wlift.
    rewrite seed_with_run, H1, H2 by auto. rewrite Nat.eqb_refl. reflexivity.
Qed.
Print Assumptions C70_nothing_to_plot.

(** From the fourth run on there is no line style for the threads. *)
Theorem C70_param_logx_diagram_four : forall E (U : uniforms E) runs fthetas o random_seed fresh labels w,
    (3 < length runs)%nat -> fthetas <> [] -> o_threads o = Some labels -> labels <> [] ->
    forall out w', param_logx_diagram U runs fthetas o random_seed fresh w <> (Ok out, w').
Proof.
  intros E U runs fs o rs fresh labels w Hl Hfs Hlab Hne out w' H. pose proof (diagram_valid _ _ _ _ _ _ _ _ _ H) as Hrs.
  rewrite diagram_run in H by (auto; intros ->; cbn in Hl; lia). destruct (_ && _)%bool; [|discriminate].
  set (s := match rs with Some z => _ | None => _ end) in H.
  destruct (loop U fs o rs fresh runs (w_rng w) (mkW s (w_warn w))) as [[[x st]|e] w1] eqn:Hloop; [|discriminate].
  unfold loop in Hloop. destruct (rev (combine (seq 0 (length runs)) runs)) as [|[k r] l] eqn:He.
  - apply (f_equal (@length _)) in He. rewrite rev_length, combine_length, seq_length, Nat.min_id in He. cbn in He. lia.
  - assert (Hk : (3 <= k)%nat).
    { assert (Hz : nth_error (rev (combine (seq 0 (length runs)) runs)) 0 = Some (k, r)) by (rewrite He; auto).
      set (L := combine (seq 0 (length runs)) runs) in *.
      assert (HL : length L = length runs) by (unfold L; rewrite combine_length, seq_length, Nat.min_id; auto).
      apply (nth_error_nth _ _ (0%nat, r)) in Hz. rewrite rev_nth in Hz by (rewrite HL; lia).
      rewrite HL in Hz. unfold L in Hz. rewrite combine_nth in Hz by (rewrite seq_length; auto).
      rewrite seq_nth in Hz by lia. injection Hz as <- _. lia. }
    cbn [wfoldM] in Hloop. apply wbind_Ok in Hloop as (a1 & v1 & Ha1 & _).
    apply wbind_Ok in Ha1 as (p & v2 & Hp & _). unfold plot_run in Hp.
    apply wbind_Ok in Hp as (? & ? & _ & Hp). apply wbind_Ok in Hp as (? & ? & _ & Hp).
    apply wbind_Ok in Hp as (? & ? & _ & Hp). apply wbind_Ok in Hp as (? & ? & _ & Hp).
    apply wbind_Ok in Hp as ([[sx sth] st'] & ? & _ & Hp). apply wbind_Ok in Hp as (sct & v3 & Hs & _).
    destruct fs as [|f fs]; [congruence|]. cbn [wmapM] in Hs. apply wbind_Ok in Hs as (y & v4 & Hy & _).
    apply wbind_Ok in Hy as (? & ? & _ & Hy). apply wbind_Ok in Hy as (? & ? & _ & Hy).
    apply wbind_Ok in Hy as (th & v5 & Hth & _). rewrite Hlab in Hth. destruct labels as [|i labels]; [congruence|].
    cbn [wmapM] in Hth. apply wbind_Ok in Hth as (z & v6 & Hz & _). apply wbind_Ok in Hz as (? & ? & _ & Hz).
    cbv zeta in Hz. apply wbind_Ok in Hz as (? & ? & _ & Hz). apply wbind_Ok in Hz as (u & v7 & Hu & _).
    unfold wlift, in_range in Hu. destruct (Nat.ltb_spec k 3); [lia|discriminate].
Qed.

(** ** C55: thinning *)
Definition col0 : quantity := fun th => Ok (map (fun t => Some (fval (nth 0 t 0%Z))) th).
Lemma col0_total : total col0.
Proof. intros th. eexists. split; [reflexivity|apply map_length]. Qed.
Lemma run_other_static : static_run run_other.
Proof.
  split; [intros n [<-|[<-|[<-|[]]]]; lia|]. exists [1; 0; 1]%Z, [(NInf, 4%Z); (NInf, 8%Z)]. exact C25_example.
Qed.
Definition half_options := mkOptions 1 1 (Some [0%Z]) true 2 None 5 5 (1 / 2).
Definition whole_options := mkOptions 1 1 (Some [0%Z]) true 2 None 5 5 1.
Definition flat_uniforms : uniforms (script_env []) := fun n s => (repeat (1 / 4) n, s).

Theorem C55_thin_refuted :
    ~ (forall E (U : uniforms E) runs fthetas o random_seed (fresh : nat -> rst E) w out w',
         param_logx_diagram U runs fthetas o random_seed fresh w = (Ok out, w') -> w_rng w' = w_rng w).
Proof.
  intros H.
  assert (HU : forall n s, length (fst (flat_uniforms n s)) = n) by (intros; apply repeat_length).
  set (w1 := @mkW (script_env []) [1%nat] []). set (w2 := @mkW (script_env []) [2%nat] []).
  assert (Hok : forall w, exists out w', param_logx_diagram flat_uniforms [run_other] [col0] half_options (Some 0%Z) (fun _ => []) w = (Ok out, w')).
  { intros w. destruct (C70_param_logx_diagram_ok flat_uniforms HU [run_other] [col0] half_options (Some 0%Z) (fun _ => []) w)
      as (out & w' & Ho & _); [cbn; lia|repeat constructor; apply run_other_static|discriminate|repeat constructor; apply col0_total
      |reflexivity|reflexivity|cbn; lia|cbn; lra|cbn; lia|cbn; lia|intros z Hz; injection Hz as <-; lia|eauto]. }
  destruct (Hok w1) as (o1 & v1 & H1), (Hok w2) as (o2 & v2 & H2).
  assert (Hne : o_thin half_options <> 1) by (cbn; lra).
  destruct (C55_thin_state _ flat_uniforms [run_other] [col0] half_options (Some 0%Z) (fun _ => []) Hne ltac:(discriminate) ltac:(intros z Hz; injection Hz as <-; lia) w1 w2) as [_ Hs].
  pose proof (H _ _ _ _ _ _ _ _ _ _ H1) as R1. pose proof (H _ _ _ _ _ _ _ _ _ _ H2) as R2.
  rewrite H1, H2 in Hs. cbn [snd] in Hs. rewrite R1, R2 in Hs. discriminate.
Qed.

(** The hypotheses of C55 and C70 can be met. *)
Example C55_example : exists out w',
    param_logx_diagram flat_uniforms [run_other; run_other] [col0] whole_options (Some 0%Z) (fun _ => [])
                       (@mkW (script_env []) [7%nat] []) = (Ok out, w') /\ w_rng w' = [7%nat].
Proof.
  assert (HU : forall n s, length (fst (flat_uniforms n s)) = n) by (intros; apply repeat_length).
  destruct (C70_param_logx_diagram_ok flat_uniforms HU [run_other; run_other] [col0] whole_options (Some 0%Z) (fun _ => [])
              (@mkW (script_env []) [7%nat] []))
      as (out & w' & Ho & _); [cbn; lia|repeat constructor; apply run_other_static|discriminate|repeat constructor; apply col0_total
      |reflexivity|reflexivity|cbn; lia|cbn; lra|cbn; lia|cbn; lia|intros z Hz; injection Hz as <-; lia|].
  exists out, w'. split; auto.
  apply (proj1 (C55_param_logx_diagram _ flat_uniforms [run_other; run_other] [col0] whole_options (Some 0%Z) (fun _ => []) eq_refl)
               (@mkW (script_env []) [7%nat] []) out w' Ho).
Qed.
Example C69_example : exists out w',
    @bs_param_dists (script_env []) [run_other] [col0] 1 1 3 (Some 0%Z) [] (@mkW (script_env []) [7%nat] []) = (Ok out, w').
Proof.
  destruct (C69_bs_param_dists_ok (script_env []) [run_other] [col0] 3 (Some 0%Z) [] (@mkW (script_env []) [7%nat] []))
    as (out & w' & H & _); [cbn; lia|repeat constructor; apply run_other_static|discriminate|repeat constructor; apply col0_total|lia|intros z Hz; injection Hz as <-; lia|].
  exists out, w'. exact H.
Qed.

Example C69_single_hypotheses :
    fst (@bs_param_dists (script_env []) [run_other] [] 0 0 3 (Some 0%Z) [] (@mkW (script_env []) [7%nat] [])) = Raise TypeError /\
    fst (@bs_param_dists (script_env []) [] [col0] 1 1 3 (Some 0%Z) [] (@mkW (script_env []) [7%nat] [])) = Raise TypeError.
Proof. split; reflexivity. Qed.
Print Assumptions C55_bs_param_dists.
Print Assumptions C55_param_logx_diagram.
Print Assumptions C55_thin_state.
Print Assumptions C55_thin_refuted.
Print Assumptions C69_bs_param_dists_ok.
Print Assumptions C69_bs_param_dists_six.
Print Assumptions C70_param_logx_diagram_ok.
Print Assumptions C70_param_logx_diagram_four.
