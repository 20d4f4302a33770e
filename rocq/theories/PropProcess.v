(** C03, C04, C10, C11: from samples arrays to runs and back. *)
From Verif Require Import Base ModelRun ModelData Envs ProofBase ProofMonad Spec SpecRun
     ProofRun ProofProcess ProofDead.

(** The rows (birth contour, logl) of a samples array. *)
Definition births_deaths (s : list samp) : list (Z * Z) :=
  map (fun x => (s_birth x, s_logl x)) s.

(** A dynamic example: three points from the whole prior (init = -9), and on the
    contour logl = 2 two new points are born. *)
Definition samples_example : list samp :=
  [mkSamp [70] 7 2; mkSamp [20] 2 (-9); mkSamp [50] 5 (-9); mkSamp [60] 6 2; mkSamp [30] 3 (-9);
   mkSamp [80] 8 5].
Ltac wf := split; [discriminate|]; intros b l Hin; simpl in Hin;
  repeat (destruct Hin as [Hin|Hin]; [inversion Hin; subst; split; [lia|]; split; [lia|];
    first [left; reflexivity | right; eexists; simpl; tauto]|]); tauto.
Example samples_example_wf : well_formed (-9) (births_deaths samples_example).
Proof. wf. Qed.
Example samples_example_distinct : NoDup (map s_logl samples_example).
Proof. repeat constructor; simpl; lia. Qed.

(** The same with tied contours (two points die on logl = 2). *)
Definition samples_ties : list samp :=
  [mkSamp [20] 2 (-9); mkSamp [21] 2 (-9); mkSamp [60] 6 2; mkSamp [70] 7 2; mkSamp [80] 8 6].
Example samples_ties_wf : well_formed (-9) (births_deaths samples_ties).
Proof. wf. Qed.

(** C03.  For any ties: there is an assignment [b] of births to deaths (-1 for
    the whole prior) such that nlive_array[i] is the number of points already
    born and not yet dead. *)
Theorem C03_nlive_counts_live_points : forall E init s da dw (w : world E) r w',
    well_formed init (births_deaths s) ->
    process_samples_array s da dw w = (Ok r, w') ->
    exists s' b, Permutation s' s /\ logl r = map s_logl s' /\
      births_on_contours (map s_birth s') (map s_logl s') b /\ valid_births b /\
      length (nlive_array r) = length (logl r) /\
      forall i, (i < length (logl r))%nat ->
        nth i (nlive_array r) 0 = Z.of_nat (alive_before b i).
Proof.
  intros E init s da dw w r w' Hwf H.
  pose proof (process_returns E init s da dw w r w' Hwf H) as (P1 & P2 & P3 & P4 & b & labs & tmm & B).
  exists (sort_samps E s), b. split; [apply sort_samps_perm|]. tauto.
Qed.
Print Assumptions C03_nlive_counts_live_points.

(** With distinct logls: the points born below logl_i and dying at or above. *)
Theorem C03_nlive_distinct : forall E init s da dw (w : world E) r w',
    well_formed init (births_deaths s) -> NoDup (map s_logl s) ->
    process_samples_array s da dw w = (Ok r, w') ->
    length (nlive_array r) = length s /\ length (logl r) = length s /\
    forall i, (i < length s)%nat ->
      nth i (nlive_array r) 0 = Z.of_nat (length (filter (fun x =>
         andb (s_birth x <? nth i (logl r) 0) (nth i (logl r) 0 <=? s_logl x)) s)).
Proof.
  intros E init s da dw w r w' Hwf Hnd H.
  apply (nlive_distinct E init); auto. apply (process_returns E init s da dw w r w' Hwf H).
Qed.
Print Assumptions C03_nlive_distinct.

Example C03_example : forall w : world (script_env []),
    process_samples_array samples_example true true w =
    (Ok (mkRun [2; 3; 5; 6; 7; 8] [[20]; [30]; [50]; [60]; [70]; [80]] [3; 4; 3; 3; 2; 1]
               (Some [0; 1; 2; 0; 3; 2]) (Some [(NInf, 6); (NInf, 3); (NInf, 8); (Fin 2, 7)])
               None None), w).
Proof. intros [r k]. vm_compute. reflexivity. Qed.
Example C03_example_ties : forall w : world (script_env [1%nat]),
    process_samples_array samples_ties false false w =
    (Ok (mkRun [2; 2; 6; 7; 8] [[20]; [21]; [60]; [70]; [80]] [2; 2; 2; 2; 1]
               (Some [0; 1; 1; 0; 1]) (Some [(NInf, 7); (NInf, 8)]) None None), w).
Proof. intros [r k]. vm_compute. reflexivity. Qed.

(** C04 *)
Theorem C04_processing : forall E init s da dw (w : world E),
    well_formed init (births_deaths s) -> (da = true -> NoDup (map s_logl s)) ->
    exists r w', process_samples_array s da dw w = (Ok r, w') /\ w_rng w' = w_rng w /\
      StronglySorted Z.le (logl r) /\
      Permutation (combine (theta r) (logl r)) (map (fun x => (s_theta x, s_logl x)) s) /\
      length (theta r) = length (logl r) /\
      output r = None /\ valid_run r /\
      forall (w2 : world E), exists w3, check_ns_run r da dw w2 = (Ok tt, w3).
Proof.
  intros E init s da dw w Hwf Hda.
  destruct (process_spec E init s da dw w Hwf Hda) as (r & w' & H1 & H2 & H3).
  exists r, w'. split; auto. split; auto.
  destruct (processed_consistent E init s r Hwf H3) as (labs & tmm & Hc & Hset).
  destruct H3 as (P1 & P2 & P3 & P4 & _).
  assert (Hv : valid_run r) by (split; eauto).
  split; [rewrite P1; apply sort_samps_sorted|].
  split; [rewrite P1, P2; apply sorted_rows_perm|].
  split; [rewrite P1, P2, !map_length; auto|]. split; auto. split; auto.
  intros w2. destruct (check_ns_run_accepts E r da dw w2) as (w3 & C & _); eauto.
  intros Hd. rewrite P1. eapply Permutation_NoDup; [|apply Hda; auto].
  apply Permutation_map. symmetry. apply sort_samps_perm.
Qed.
Print Assumptions C04_processing.
(** Example: [samples_example] above. *)

(** C10.  [s] written back is [s] sorted by logl with every birth contour
    [init] replaced by [init']. *)
Definition replace_init (init init' : Z) (x : samp) : samp :=
  mkSamp (s_theta x) (s_logl x) (if s_birth x =? init then init' else s_birth x).

Theorem C10_dead_birth_array : forall E init init' s da dw (w : world E) r w',
    well_formed init (births_deaths s) ->
    process_samples_array s da dw w = (Ok r, w') ->
    forall (w2 : world E), exists out w3, run_dead_birth_array r init' da dw w2 = (Ok out, w3) /\
      w_rng w3 = w_rng w2 /\
      Permutation out (map (replace_init init init') s) /\
      StronglySorted Z.le (map s_logl out).
Proof.
  intros E init init' s da dw w r w' Hwf H w2.
  destruct (dead_birth_spec E init init' s r da dw w2 Hwf) as (out & w3 & D1 & D2 & D3 & D4 & D5).
  - apply (process_returns E init s da dw w r w' Hwf H).
  - intros ->. apply (process_dup E s dw w r w' H).
  - exists out, w3. auto.
Qed.
Print Assumptions C10_dead_birth_array.

(** With distinct logls the output is determined: it is the sorted list. *)
Theorem C10_distinct : forall E init init' s sorted da dw (w : world E) r w',
    well_formed init (births_deaths s) -> NoDup (map s_logl s) ->
    Permutation sorted s -> StronglySorted Z.le (map s_logl sorted) ->
    process_samples_array s da dw w = (Ok r, w') ->
    forall (w2 : world E), run_dead_birth_array r init' da dw w2 = (Ok (map (replace_init init init') sorted), w2).
Proof.
  intros E init init' s sorted da dw w r w' Hwf Hnd Hp Hs H w2.
  destruct (dead_birth_spec E init init' s r da dw w2 Hwf) as (out & w3 & D1 & D2 & D3 & D4 & D5).
  - apply (process_returns E init s da dw w r w' Hwf H).
  - auto.
  - rewrite D3 in D1 by auto. rewrite D1. f_equal. f_equal.
    apply key_sorted_perm_eq; auto.
    + eapply Permutation_NoDup; [apply Permutation_map; symmetry; exact D4|].
      rewrite set_init_logl. auto.
    + change (map (replace_init init init') sorted) with (map (set_init init init') sorted).
      rewrite set_init_logl. auto.
    + etransitivity; [exact D4|]. apply Permutation_map. symmetry. auto.
Qed.
Print Assumptions C10_distinct.

Example C10_example : forall w : world (script_env []),
    (let* r := process_samples_array samples_example true true in
     run_dead_birth_array r (-1000) true true) w =
    (Ok [mkSamp [20] 2 (-1000); mkSamp [30] 3 (-1000); mkSamp [50] 5 (-1000); mkSamp [60] 6 2;
         mkSamp [70] 7 2; mkSamp [80] 8 5], w).
Proof. intros [r k]. vm_compute. reflexivity. Qed.

(** C11.  [out] is what is written, reprocessed in any later state of the
    world; [init'] must be below the points. *)
Theorem C11_reprocessing : forall E init init' s da dw (w : world E) r w' (w2 : world E) out w3,
    well_formed init (births_deaths s) -> NoDup (map s_logl s) ->
    (forall x, In x s -> init' < s_logl x) ->
    process_samples_array s da dw w = (Ok r, w') ->
    run_dead_birth_array r init' da dw w2 = (Ok out, w3) ->
    forall (w4 : world E), fst (process_samples_array out da dw w4) = Ok r.
Proof.
  intros E init init' s da dw w r w' w2 out w3 Hwf Hnd Hi H D w4.
  pose proof (process_returns E init s da dw w r w' Hwf H) as Hp.
  destruct (dead_birth_spec E init init' s r da dw w2 Hwf Hp) as (out' & w3' & D1 & D2 & D3 & D4 & D5);
    auto.
  rewrite D1 in D. inversion D; subst.
  destruct (reprocess E init init' s r da dw w4 out Hwf Hnd Hi Hp D4) as [w5 H5].
  rewrite H5. auto.
Qed.
Print Assumptions C11_reprocessing.

Example C11_example : forall w : world (script_env []),
    (let* r := process_samples_array samples_example true true in
     let* out := run_dead_birth_array r (-1000) true true in
     process_samples_array out true true) w = process_samples_array samples_example true true w.
Proof. intros [r k]. vm_compute. reflexivity. Qed.
