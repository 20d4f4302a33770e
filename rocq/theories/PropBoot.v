(** C25 - C28, C61 - C63: threads of a run and bootstrap resampling. *)
From Verif Require Import Base ModelRun ModelData ModelBoot Envs ProofBase ProofMonad ProofDet Spec SpecRun
     ProofRun ProofDict ProofComb ProofRuns ProofJoin ProofLow ProofTies ProofBoot ProofNinit PropCheck PropCombine.

(** ** C61 *)

(** get_run_threads of a valid run gives its threads in order of their labels:
    each has the samples with that label, a constant label, one live point and
    the thread's own start and end; and nothing else changes. *)
Theorem C61_get_run_threads : forall E r labs tmm (w : world E), consistent r labs tmm ->
    exists ths, get_run_threads r w = (Ok ths, w) /\ length ths = length tmm /\
    forall k, (k < length tmm)%nat -> exists th, nth_error ths k = Some th /\
      combine (logl th) (theta th) = samples_of_thread r labs (Z.of_nat k) /\
      logl th <> [] /\ length (theta th) = length (logl th) /\
      nlive_array th = repeat 1 (length (logl th)) /\
      thread_labels th = Some (repeat (Z.of_nat k) (length (logl th))) /\
      thread_min_max th = Some [nth k tmm (NInf, 0)] /\ output th = None /\ settings th = None.
Proof.
  intros E r labs tmm w Hcon. eexists. split; [apply get_run_threads_spec; eauto|].
  rewrite map_length, seq_length. split; auto. intros k Hk.
  exists (nth_thread r labs (Z.of_nat k) (nth k tmm (NInf, 0))).
  split.
  { rewrite (nth_error_nth' _ r) by (rewrite map_length, seq_length; auto).
    f_equal. rewrite nth_map_seq; auto. }
  split; [eapply nth_thread_samples; eauto|].
  unfold nth_thread. cbn [logl theta nlive_array thread_labels thread_min_max output settings].
  unfold take. rewrite !map_length. split; [|repeat split].
  destruct Hcon as (_ & _ & _ & V2 & _ & _ & _ & V6 & _). rewrite map_length in V6.
  intros Hn. apply map_eq_nil in Hn.
  assert (Hin : In (Z.of_nat k) labs) by (apply V6; lia).
  destruct (In_nth _ _ 0 Hin) as (i & I1 & I2).
  assert (Hi : In i (thread_inds labs (Z.of_nat k))).
  { apply (in_where _ _ 0). split; auto. apply Z.eqb_eq. auto. }
  rewrite Hn in Hi. destruct Hi.
Qed.
Print Assumptions C61_get_run_threads.
Example C61_example : consistent run_two [0; 0; 1; 0] [(NInf, 6); (Fin 3, 5)] /\
    samples_of_thread run_two [0; 0; 1; 0] 0 = [(1, [10]); (3, [30]); (6, [60])].
Proof. split; [apply run_two_complete|reflexivity]. Qed.

(** ** C25 *)

(** The threads drawn are [length tmm] successive draws of the generator, each
    below [length tmm].  At the first of each group of equal logls nlive_array
    is the number of drawn threads not yet ended, and it never increases. *)
Theorem C25_bootstrap_static : forall E r labs tmm b (w : world E), accepted_seed b ->
    consistent r labs tmm ->
    (forall m e, ~ In (Fin m, e) tmm) ->
    (forall i j, (i < j < length (logl r))%nat -> nth i labs 0 = nth j labs 0 ->
                 nth i (logl r) 0 < nth j (logl r) 0) ->
    let drawn := draw_seq E (length tmm) (length tmm) (seeded_state b (w_rng w)) in
    let inds := fst drawn in
    length inds = length tmm /\ (forall i, In i inds -> (i < length tmm)%nat) /\
    exists rr, bootstrap_resample_run r None false b w =
               (Ok rr, mkW (match b with BKeep => snd drawn | _ => w_rng w end) (w_warn w)) /\
      Permutation (combine (logl rr) (theta rr))
                  (flat_map (fun i => samples_of_thread r labs (Z.of_nat i)) inds) /\
      StronglySorted Z.le (logl rr) /\ length (theta rr) = length (logl rr) /\
      length (nlive_array rr) = length (logl rr) /\ settings rr = settings r /\ output rr = None /\
      (forall i, (i < length (logl rr))%nat ->
         (forall j, (j < i)%nat -> nth j (logl rr) 0 < nth i (logl rr) 0) ->
         nth i (nlive_array rr) 0 =
         Z.of_nat (length (filter (fun k => nth i (logl rr) 0 <=? snd (nth k tmm (NInf, 0))) inds))) /\
      (forall i, (S i < length (logl rr))%nat ->
         nth (S i) (nlive_array rr) 0 <= nth i (nlive_array rr) 0) /\
      (forall x, In x (nlive_array rr) -> 1 <= x) /\ last (nlive_array rr) 0 = 1.
Proof. exact boot_static. Qed.
Print Assumptions C25_bootstrap_static.

(** Every choice of [length tmm] threads is possible. *)
Theorem C25_every_choice : forall r labs tmm inds, consistent r labs tmm ->
    (forall m e, ~ In (Fin m, e) tmm) ->
    (forall i j, (i < j < length (logl r))%nat -> nth i labs 0 = nth j labs 0 ->
                 nth i (logl r) 0 < nth j (logl r) 0) ->
    length inds = length tmm -> (forall i, In i inds -> (i < length tmm)%nat) ->
    exists E (w : world E) rr w', bootstrap_resample_run r None false BKeep w = (Ok rr, w') /\
      Permutation (combine (logl rr) (theta rr))
                  (flat_map (fun i => samples_of_thread r labs (Z.of_nat i)) inds).
Proof.
  intros r labs tmm inds Hcon Hst Hinc Hl Hin.
  destruct (boot_static (script_env []) r labs tmm BKeep (@mkW (script_env []) inds []) I Hcon Hst Hinc)
    as (_ & _ & rr & H1 & H2 & _).
  cbn [w_rng w_warn seeded_state] in H1, H2.
  assert (Hd : draw_seq (script_env []) (length tmm) (length tmm) inds = (inds, [])).
  { pose proof (script_draws [] (length tmm) inds [] Hin) as Hd. rewrite app_nil_r, Hl in Hd. auto. }
  rewrite Hd in H1, H2. do 4 eexists. split; [exact H1|exact H2].
Qed.
Print Assumptions C25_every_choice.
Example C25_example :
  consistent run_other [1; 0; 1] [(NInf, 4); (NInf, 8)] /\
  (forall m e, ~ In (Fin m, e) [(NInf, 4); (NInf, 8)]) /\
  (forall i j, (i < j < length (logl run_other))%nat -> nth i [1; 0; 1] 0 = nth j [1; 0; 1] 0 ->
                 nth i (logl run_other) 0 < nth j (logl run_other) 0).
Proof.
  split; [apply run_other_complete|]. split; [intros m e [H|[H|[]]]; inversion H|].
  intros i j Hij _. simpl in Hij. four i; four j; simpl; lia.
Qed.
(** Drawing the second thread twice. *)
Example C25_example_result :
    match bootstrap_resample_run run_other None false BKeep (@mkW (script_env []) [1; 1]%nat []) with
    | (Ok rr, _) => (logl rr, theta rr, nlive_array rr) =
                    ([2; 2; 8; 8], [[20]; [20]; [80]; [80]], [2; 2; 2; 1])
    | _ => False
    end.
Proof. vm_compute. reflexivity. Qed.

(** ** C26 *)
Theorem C26_bootstrap_seeded : forall E r threads ns b, b <> BKeep ->
    (forall w a w', bootstrap_resample_run (E := E) r threads ns b w = (Ok a, w') -> w_rng w' = w_rng w) /\
    (forall w1 w2, fst (bootstrap_resample_run (E := E) r threads ns b w1) =
                   fst (bootstrap_resample_run r threads ns b w2)).
Proof.
  intros E r threads ns b Hb. assert (Hs : seeded b = true) by (destruct b; auto; congruence).
  destruct (det_spec _ _ _ (det_boot E r threads ns b Hs)). auto.
Qed.
Print Assumptions C26_bootstrap_seeded.
Theorem C26_bootstrap_values : forall E A (est : run -> res A) r ns n,
    (forall w a w', bootstrap_columns (E := E) est r ns n (default_seeds n) w = (Ok a, w') ->
                    w_rng w' = w_rng w) /\
    (forall w1 w2, fst (bootstrap_columns (E := E) est r ns n (default_seeds n) w1) =
                   fst (bootstrap_columns (E := E) est r ns n (default_seeds n) w2)).
Proof.
  intros E A est r ns n.
  assert (Hs : forall b, In b (default_seeds (E := E) n) -> seeded b = true).
  { intros b Hb. apply in_map_iff in Hb as [z [<- _]]. auto. }
  destruct (det_spec _ _ _ (det_columns E A est r ns n _ Hs)). auto.
Qed.
Print Assumptions C26_bootstrap_values.
Example C26_example :
    match bootstrap_columns (fun r => Ok (logl r)) run_other false 2 (default_seeds 2)
            (@mkW (script_env [1; 0]%nat) [5; 6]%nat []) with
    | (Ok l, w') => l = [[2; 4; 8]; [2; 4; 8]] /\ w_rng w' = [5; 6]%nat
    | _ => False
    end.
Proof. vm_compute. split; reflexivity. Qed.
(** Without a seed both parts fail. *)
Example C26_unseeded_differs :
    fst (bootstrap_resample_run run_other None false BKeep (@mkW (script_env []) [1; 1]%nat [])) <>
    fst (bootstrap_resample_run run_other None false BKeep (@mkW (script_env []) [0; 1]%nat [])).
Proof. vm_compute. discriminate. Qed.

(** ** C63: after an exception the state is not restored: it does not depend on
    the state before the call.  Only if np.random.seed does not accept the seed
    nothing is changed. *)
Theorem C63_bad_seed : forall E r threads ns b (w : world E), ~ accepted_seed b ->
    bootstrap_resample_run r threads ns b w = (Raise ValueError, w).
Proof.
  intros E r ths ns b w H. rewrite boot_form. unfold wbind, get_state. rewrite apply_seed_bad by auto. auto.
Qed.
Print Assumptions C63_bad_seed.
Example C63_bad_seed_example : ~ accepted_seed (E := script_env []) (BInt (-1)) /\ ~ accepted_seed (E := script_env []) (BInt 4294967296) /\
    accepted_seed (E := script_env []) (BInt 4294967295).
Proof. cbn. lia. Qed.
Theorem C63_state_after_exception : forall E r threads ns b (w : world E) e w', b <> BKeep -> accepted_seed b ->
    bootstrap_resample_run r threads ns b w = (Raise e, w') ->
    forall w2, exists w2', bootstrap_resample_run r threads ns b w2 = (Raise e, w2') /\ w_rng w2' = w_rng w'.
Proof.
  intros E r ths ns b w e w' Hb Hacc H w2. assert (Hs : seeded b = true) by (destruct b; auto; congruence).
  assert (Hseed : exists s, forall w : world E, apply_seed b w = (Ok tt, mkW s (w_warn w))).
  { destruct b as [|z|s]; [discriminate|exists (r_seed E z)|exists s]; intros w0; apply (apply_seed_state E _ w0 Hacc). }
  destruct Hseed as [s Hseed]. destruct (uniform_body E r ths ns s) as (res & s' & ds & Hu).
  revert H. rewrite !boot_form, Hs. unfold wbind, get_state, set_state. rewrite !Hseed, !Hu.
  destruct res as [a|e']; [discriminate|]. intros H. inversion H; subst. eauto.
Qed.
Print Assumptions C63_state_after_exception.
Definition run_seq : run :=
  mkRun [1; 2; 5; 6] [[10]; [20]; [50]; [60]] [2; 2; 1; 1] (Some [0; 1; 0; 2])
        (Some [(NInf, 5); (NInf, 2); (Fin 5, 6)]) None (Some (Some 2%nat)).
Theorem C63_state_after_exception_refuted :
    ~ (forall E r threads ns b (w : world E), b <> BKeep -> accepted_seed b ->
         w_rng (snd (bootstrap_resample_run r threads ns b w)) = w_rng w).
Proof.
  intros H.
  specialize (H (script_env [2; 2; 2]%nat) run_seq None false (BInt 0) (@mkW (script_env [2; 2; 2]%nat) [7; 7]%nat [])
                ltac:(discriminate) ltac:(cbn; lia)).
  vm_compute in H. discriminate.
Qed.
Print Assumptions C63_state_after_exception_refuted.

(** ** C27 *)
Theorem C27_ninit_sep : forall E r labs tmm ninit b (w : world E) rr w',
    consistent r labs tmm -> settings r = Some (Some ninit) ->
    bootstrap_resample_run r None true b w = (Ok rr, w') ->
    let m := (length tmm - ninit)%nat in
    let d1 := draw_seq E ninit ninit (seeded_state b (w_rng w)) in
    let first := fst d1 in
    let rest := map (Nat.add ninit) (fst (draw_seq E m m (snd d1))) in
    length first = ninit /\ length rest = m /\ (ninit <= length tmm)%nat /\
    (forall i, In i first -> (i < ninit)%nat) /\
    (forall i, In i rest -> (ninit <= i < length tmm)%nat) /\
    settings rr = settings r /\
    Permutation (combine (logl rr) (theta rr))
                (flat_map (fun i => samples_of_thread r labs (Z.of_nat i)) (first ++ rest)).
Proof. exact boot_ninit_samples. Qed.
Print Assumptions C27_ninit_sep.
Example C27_example :
    match bootstrap_resample_run run_seq None true (BInt 0) (@mkW (script_env [1; 0; 0]%nat) [] []) with
    | (Ok rr, w) => (logl rr, nlive_array rr, settings rr, w_warn w) =
                    ([1; 2; 5; 6], [2; 2; 1; 1], Some (Some 2%nat), [])
    | _ => False
    end.
Proof. vm_compute. reflexivity. Qed.

(** ** C62: when the resample with ninit_sep succeeds *)
Lemma run_seq_complete : complete_run run_seq [0; 1; 0; 2] [(NInf, 5); (NInf, 2); (Fin 5, 6)].
Proof.
  unfold complete_run, consistent, valid_columns, run_seq. cbn [logl theta nlive_array thread_labels thread_min_max length map fst snd ext_opt].
  split.
  { split; [reflexivity|]. split; [reflexivity|].
    split; [reflexivity|]. split; [reflexivity|]. split; [reflexivity|].
    split; [repeat (constructor; try lia)|]. split; [reflexivity|].
    split; [simpl; intros; lia|]. split; [simpl; auto|].
    intros k Hk. split.
    - intros f m (F1 & F2 & F3). cbn [length] in F1.
      destruct k as [|[|[|k]]]; simpl; try lia; try discriminate. intros Hm. inversion Hm; subst.
      four f; simpl in *; try lia.
    - intros l (L1 & L2 & L3). cbn [length] in L1, L3.
      destruct k as [|[|[|k]]]; try lia; four l; simpl in *; try lia.
      specialize (L3 2%nat ltac:(lia)). simpl in L3. lia. }
  split; [repeat (constructor; try (simpl; lia))|].
  split.
  { intros k f Hk (F1 & F2 & F3). destruct k as [|[|[|k]]]; simpl in *; try lia; auto.
    four f; simpl in *; try lia; auto. }
  split.
  { intros m e [H|[H|[H|[]]]]; inversion H; subst; simpl; auto. }
  intros i Hi. four i; simpl in *; try lia; reflexivity.
Qed.
Theorem C62_ninit_sep_succeeds_refuted :
    ~ (forall E r labs tmm ninit b (w : world E), accepted_seed b -> complete_run r labs tmm ->
         settings r = Some (Some ninit) -> (0 < ninit <= length tmm)%nat ->
         (forall k, (k < length tmm)%nat -> fst (nth k tmm (NInf, 0)) = NInf <-> (k < ninit)%nat) ->
         exists rr w', bootstrap_resample_run r None true b w = (Ok rr, w')).
Proof.
  intros H.
  destruct (H (script_env [1; 1; 0]%nat) _ _ _ 2%nat (BInt 0) (@mkW (script_env [1; 1; 0]%nat) [] [])
              ltac:(cbn; lia) run_seq_complete) as (rr & w' & Hr).
  - reflexivity.
  - simpl. lia.
  - intros k Hk. simpl in Hk. destruct k as [|[|[|k]]]; simpl; try lia; split; auto; try discriminate; lia.
  - vm_compute in Hr. discriminate.
Qed.
Print Assumptions C62_ninit_sep_succeeds_refuted.

(** It succeeds for every draw exactly when every thread sampled from the whole
    prior supports every other one. *)
Theorem C62_ninit_sep_succeeds_iff : forall r labs tmm ninit, complete_run r labs tmm ->
    settings r = Some (Some ninit) -> (0 < ninit <= length tmm)%nat ->
    (forall k, (k < length tmm)%nat -> fst (nth k tmm (NInf, 0)) = NInf <-> (k < ninit)%nat) ->
    (forall j k s f, (j < ninit)%nat -> (k < length tmm)%nat -> fst (nth k tmm (NInf, 0)) = Fin s ->
       first_of labs (Z.of_nat j) f -> nth f (logl r) 0 <> s) ->
    (forall E b (w : world E), accepted_seed b -> exists rr w', bootstrap_resample_run r None true b w = (Ok rr, w')) <->
    (forall j k s, (j < ninit)%nat -> (k < length tmm)%nat -> fst (nth k tmm (NInf, 0)) = Fin s ->
       supports r labs tmm j k s).
Proof.
  intros r labs tmm ninit (Hcon & Hnd & Hab & _) Hset Hn Hst Hns.
  apply boot_ninit_iff; auto. intros i j Hij _. pose proof Hcon as (_ & _ & _ & _ & _ & Hs & _).
  pose proof (ssorted_le_nth_le (logl r) i j Hs ltac:(lia)).
  assert (nth i (logl r) 0 <> nth j (logl r) 0); [|lia].
  intros He. apply (proj1 (NoDup_nth (logl r) 0) Hnd) in He; lia.
Qed.
Print Assumptions C62_ninit_sep_succeeds_iff.
(** The same without distinct logls, one way. *)
Theorem C62_ninit_sep_succeeds : forall r labs tmm ninit, consistent r labs tmm ->
    (forall i j, (i < j < length (logl r))%nat -> nth i labs 0 = nth j labs 0 ->
                 nth i (logl r) 0 < nth j (logl r) 0) ->
    (forall k f, (k < length tmm)%nat -> first_of labs (Z.of_nat k) f ->
       starts_below (fst (nth k tmm (NInf, 0))) (nth f (logl r) 0) = true) ->
    settings r = Some (Some ninit) -> (0 < ninit <= length tmm)%nat ->
    (forall k, (k < length tmm)%nat -> fst (nth k tmm (NInf, 0)) = NInf <-> (k < ninit)%nat) ->
    (forall j k s, (j < ninit)%nat -> (k < length tmm)%nat -> fst (nth k tmm (NInf, 0)) = Fin s ->
       supports r labs tmm j k s) ->
    forall E b (w : world E), accepted_seed b -> exists rr w', bootstrap_resample_run r None true b w = (Ok rr, w').
Proof. intros r labs tmm ninit Hcon Hinc Hab Hset Hn Hst Hsup E b w Hb. eapply boot_ninit_ok; eauto. Qed.
Print Assumptions C62_ninit_sep_succeeds.
(** [run_seq] with its last two points closer to the others. *)
Definition run_near : run :=
  mkRun [1; 2; 3; 4] [[10]; [20]; [30]; [40]] [2; 2; 1; 1] (Some [0; 1; 0; 2])
        (Some [(NInf, 3); (NInf, 2); (Fin 3, 4)]) None (Some (Some 2%nat)).
Example C62_example : complete_run run_near [0; 1; 0; 2] [(NInf, 3); (NInf, 2); (Fin 3, 4)] /\
    (forall k, (k < 3)%nat -> fst (nth k [(NInf, 3); (NInf, 2); (Fin 3, 4)] (NInf, 0)) = NInf <-> (k < 2)%nat) /\
    (forall j k s, (j < 2)%nat -> (k < 3)%nat -> fst (nth k [(NInf, 3); (NInf, 2); (Fin 3, 4)] (NInf, 0)) = Fin s ->
       supports run_near [0; 1; 0; 2] [(NInf, 3); (NInf, 2); (Fin 3, 4)] j k s /\
       forall f, first_of [0; 1; 0; 2] (Z.of_nat j) f -> nth f (logl run_near) 0 <> s) /\
    ~ supports run_seq [0; 1; 0; 2] [(NInf, 5); (NInf, 2); (Fin 5, 6)] 1 2 5.
Proof.
  split; [|split; [|split]].
  - unfold complete_run, consistent, valid_columns, run_near. cbn [logl theta nlive_array thread_labels thread_min_max length map fst snd ext_opt].
    split.
    { split; [reflexivity|]. split; [reflexivity|].
      split; [reflexivity|]. split; [reflexivity|]. split; [reflexivity|].
      split; [repeat (constructor; try lia)|]. split; [reflexivity|].
      split; [simpl; intros; lia|]. split; [simpl; auto|].
      intros k Hk. split.
      - intros f m (F1 & F2 & F3). cbn [length] in F1.
        destruct k as [|[|[|k]]]; simpl; try lia; try discriminate. intros Hm. inversion Hm; subst.
        four f; simpl in *; try lia.
      - intros l (L1 & L2 & L3). cbn [length] in L1, L3.
        destruct k as [|[|[|k]]]; try lia; four l; simpl in *; try lia.
        specialize (L3 2%nat ltac:(lia)). simpl in L3. lia. }
    split; [repeat (constructor; try (simpl; lia))|].
    split.
    { intros k f Hk (F1 & F2 & F3). destruct k as [|[|[|k]]]; simpl in *; try lia; auto.
      four f; simpl in *; try lia; auto. }
    split.
    { intros m e [H|[H|[H|[]]]]; inversion H; subst; simpl; auto. }
    intros i Hi. four i; simpl in *; try lia; reflexivity.
  - intros k Hk. destruct k as [|[|[|k]]]; simpl; try lia; split; auto; try discriminate; lia.
  - intros j k s Hj Hk Hs. destruct k as [|[|[|k]]]; try lia; try discriminate. inversion Hs; subst s.
    assert (Hf : forall f, first_of [0; 1; 0; 2] (Z.of_nat j) f -> f = j).
    { intros f (F1 & F2 & F3). cbn [length] in F1. destruct j as [|[|j]]; try lia; four f; simpl in *; try lia.
      specialize (F3 0%nat ltac:(lia)). simpl in F3. lia. }
    split.
    + intros f p F (P1 & P2 & _). cbn [length] in P1. apply Hf in F. subst f.
      assert (p = 3%nat) as -> by (four p; simpl in *; lia).
      destruct j as [|[|j]]; try lia; (split; [simpl; lia|]); right.
      * exists 2%nat. simpl. repeat split; lia.
      * exists 1%nat. simpl. repeat split; lia.
    + intros f F. apply Hf in F. subst f. destruct j as [|[|j]]; try lia; simpl; lia.
  - intros H. destruct (H 1%nat 3%nat) as [_ [H1|(i & I1 & I2 & I3 & I4)]].
    + split; [simpl; lia|]. split; [reflexivity|]. intros [|q] Hq; simpl; lia.
    + split; [simpl; lia|]. split; [reflexivity|]. intros [|[|[|q]]] Hq; simpl; lia.
    + simpl in H1. lia.
    + cbn [length] in I1. four i; simpl in *; try lia.
Qed.

(** ** C28 *)
Theorem C28_settings_rejected : forall E r s da dw (w : world E), settings r = Some s ->
    check_ns_run r da dw w = (Raise AssertionError, w) /\
    forall runs w1 w2 rr, In r runs -> combine_ns_runs (E := E) runs da dw w1 <> (Ok rr, w2).
Proof.
  intros E r s da dw w Hs.
  assert (Hc : forall w0 : world E, check_ns_run r da dw w0 = (Raise AssertionError, w0)).
  { intros w0. unfold check_ns_run, check_ns_run_members. rewrite Hs. reflexivity. }
  split; [apply Hc|]. intros runs w1 w2 rr Hin H.
  assert (Hrel : forall runs t w l w', In r runs -> relabel_runs (E := E) t runs da dw w <> (Ok l, w')).
  { clear - Hc. induction runs as [|x rest IH]; intros t w l w' Hin H; [destruct Hin|].
    cbn [relabel_runs] in H. apply wbind_Ok in H as (u & w1 & H1 & H).
    destruct Hin as [->|Hin]; [rewrite Hc in H1; discriminate|].
    destruct (thread_labels x), (thread_min_max x); try discriminate.
    apply wbind_Ok in H as (l' & w2 & H2 & H). eapply IH; eauto. }
  unfold combine_ns_runs in H. destruct runs as [|r1 [|r2 rest]]; [discriminate| |].
  - apply wbind_Ok in H as (u & w3 & H1 & H). destruct Hin as [->|[]]. rewrite Hc in H1. discriminate.
  - apply wbind_Ok in H as (l & w3 & H1 & H). eapply Hrel; eauto.
Qed.
Print Assumptions C28_settings_rejected.
(** Without the key the same run is valid. *)
Example C28_example : valid_run (with_settings run_seq None) /\ settings run_seq = Some (Some 2%nat).
Proof. split; [|reflexivity]. split; [reflexivity|]. do 2 eexists. apply run_seq_complete. Qed.
