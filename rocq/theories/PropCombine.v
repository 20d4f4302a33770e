(** C18 - C24: splitting runs into threads and combining threads and runs. *)
From Verif Require Import Base ModelRun ModelData Envs ProofBase ProofMonad Spec SpecRun
     ProofRun ProofDict ProofComb ProofRuns ProofJoin ProofLow PropCheck.

(** ** Examples used below *)

(** Two threads; the second starts on the second point. *)
Definition run_two : run :=
  mkRun [1; 3; 5; 6] [[10]; [30]; [50]; [60]] [1; 1; 2; 1] (Some [0; 0; 1; 0])
        (Some [(NInf, 6); (Fin 3, 5)]) None None.
Definition run_other : run :=
  mkRun [2; 4; 8] [[20]; [40]; [80]] [2; 2; 1] (Some [1; 0; 1])
        (Some [(NInf, 4); (NInf, 8)]) (Some (mkOut (Some (ONum 70)) None (Some 9) [])) None.

Ltac four n := destruct n as [|[|[|[|n]]]].
Lemma run_two_complete : complete_run run_two [0; 0; 1; 0] [(NInf, 6); (Fin 3, 5)].
Proof.
  unfold complete_run, consistent, valid_columns, run_two. cbn [logl theta nlive_array thread_labels thread_min_max length map fst snd ext_opt].
  split.
  { split; [reflexivity|]. split; [reflexivity|].
    split; [reflexivity|]. split; [reflexivity|]. split; [reflexivity|].
    split; [repeat (constructor; try lia)|]. split; [reflexivity|].
    split; [simpl; intros; lia|]. split; [simpl; auto|].
    intros k Hk. split.
    - intros f m (F1 & F2 & F3). cbn [length] in F1.
      destruct k as [|[|k]]; simpl; try lia; try discriminate. intros Hm. inversion Hm; subst.
      four f; simpl in *; try lia.
    - intros l (L1 & L2 & L3). cbn [length] in L1, L3.
      destruct k as [|[|k]]; try lia.
      + four l; simpl in *; try lia.
        * specialize (L3 1%nat ltac:(lia)). simpl in L3. lia.
        * specialize (L3 3%nat ltac:(lia)). simpl in L3. lia.
      + four l; simpl in *; try lia. }
  split; [repeat (constructor; try (simpl; lia))|].
  split.
  { intros k f Hk (F1 & F2 & F3). destruct k as [|[|k]]; simpl in *; try lia; auto.
    four f; simpl in *; try lia; auto. }
  split.
  { intros m e [H|[H|[]]]; inversion H; subst; simpl; auto. }
  intros i Hi. four i; simpl in *; try lia; reflexivity.
Qed.
Lemma run_other_complete : complete_run run_other [1; 0; 1] [(NInf, 4); (NInf, 8)].
Proof.
  unfold complete_run, consistent, valid_columns, run_other. cbn [logl theta nlive_array thread_labels thread_min_max length map fst snd ext_opt].
  split.
  { split; [reflexivity|]. split; [reflexivity|].
    split; [reflexivity|]. split; [reflexivity|]. split; [reflexivity|].
    split; [repeat (constructor; try lia)|]. split; [reflexivity|].
    split; [simpl; intros; lia|]. split; [simpl; auto|].
    intros k Hk. split.
    - intros f m _. destruct k as [|[|k]]; simpl; try lia; try discriminate.
    - intros l (L1 & L2 & L3). cbn [length] in L1, L3.
      destruct k as [|[|k]]; try lia.
      + four l; simpl in *; try lia.
      + four l; simpl in *; try lia.
        specialize (L3 2%nat ltac:(lia)). simpl in L3. lia. }
  split; [repeat (constructor; try (simpl; lia))|].
  split.
  { intros k f Hk _. destruct k as [|[|k]]; simpl in *; try lia; auto. }
  split.
  { intros m e [H|[H|[]]]; inversion H. }
  intros i Hi. four i; simpl in *; try lia; reflexivity.
Qed.
Lemma run_example_complete : complete_run run_example [0; 0; 1; 0] [(NInf, 6); (Fin 1, 5)].
Proof.
  unfold complete_run, consistent, valid_columns, run_example. cbn [logl theta nlive_array thread_labels thread_min_max length map fst snd ext_opt].
  split.
  { split; [reflexivity|]. split; [reflexivity|].
    split; [reflexivity|]. split; [reflexivity|]. split; [reflexivity|].
    split; [repeat (constructor; try lia)|]. split; [reflexivity|].
    split; [simpl; intros; lia|]. split; [simpl; auto|].
    intros k Hk. split.
    - intros f m (F1 & F2 & F3). cbn [length] in F1.
      destruct k as [|[|k]]; simpl; try lia; try discriminate. intros Hm. inversion Hm; subst.
      four f; simpl in *; try lia.
    - intros l (L1 & L2 & L3). cbn [length] in L1, L3.
      destruct k as [|[|k]]; try lia.
      + four l; simpl in *; try lia.
        * specialize (L3 1%nat ltac:(lia)). simpl in L3. lia.
        * specialize (L3 3%nat ltac:(lia)). simpl in L3. lia.
      + four l; simpl in *; try lia. }
  split; [repeat (constructor; try (simpl; lia))|].
  split.
  { intros k f Hk (F1 & F2 & F3). destruct k as [|[|k]]; simpl in *; try lia; auto.
    four f; simpl in *; try lia; auto. }
  split.
  { intros m e [H|[H|[]]]; inversion H; subst; simpl; auto. }
  intros i Hi. four i; simpl in *; try lia; reflexivity.
Qed.

(** ** C18 *)
Lemma complete_nonempty : forall r labs tmm, complete_run r labs tmm -> logl r <> [].
Proof. intros r labs tmm H. apply (complete_parts r labs tmm H). Qed.

Theorem C18_split_join : forall E r labs tmm abp (w : world E),
    complete_run r labs tmm -> above_some tmm (logl r) ->
    (let* threads := get_run_threads r in combine_threads threads abp) w =
    (Ok (mkRun (logl r) (theta r) (nlive_array r) (Some labs) (Some tmm) None None), w).
Proof.
  intros E r labs tmm abp w Hc Ha. apply split_join; auto.
  apply above_some_min; auto. eapply complete_nonempty; eauto.
Qed.
Print Assumptions C18_split_join.
Example C18_example : complete_run run_two [0; 0; 1; 0] [(NInf, 6); (Fin 3, 5)] /\
                      above_some [(NInf, 6); (Fin 3, 5)] (logl run_two).
Proof.
  split; [apply run_two_complete|]. intros m e [H|[H|[]]]; inversion H; subst. exists 1. simpl. lia.
Qed.

(** ** C19 *)

(** The claim fails: there is a complete run which cannot be put together. *)
Theorem C19_refuted : ~ (forall E r labs tmm abp (w : world E), complete_run r labs tmm ->
    (let* threads := get_run_threads r in combine_threads threads abp) w =
    (Ok (mkRun (logl r) (theta r) (nlive_array r) (Some labs) (Some tmm) None None), w)).
Proof.
  intros H. specialize (H (script_env []) _ _ _ false (@mkW (script_env []) [] []) run_example_complete).
  vm_compute in H. discriminate.
Qed.
Print Assumptions C19_refuted.
(** What happens for every complete run with [c] threads starting on its lowest
    logl [x0]. *)
Theorem C19_starts_on_lowest : forall E r labs tmm abp (w : world E) x0,
    complete_run r labs tmm -> In x0 (logl r) -> (forall x, In x (logl r) -> x0 <= x) ->
    let c := starts_on tmm x0 in
    (c = 1%nat -> (let* threads := get_run_threads r in combine_threads threads abp) w =
                  (Raise AssertionError, w)) /\
    ((2 <= c)%nat -> (let* threads := get_run_threads r in combine_threads threads abp) w =
       (Ok (mkRun (logl r) (theta r) (hd 0 (nlive_array r) + Z.of_nat c :: tl (nlive_array r))
                  (Some labs) (Some tmm) None None),
        mkW (w_rng w) (WDupStarts :: w_warn w))).
Proof.
  intros E r labs tmm abp w x0 Hc Hin Hmin. pose proof (split_join_low E r labs tmm abp w Hc) as H.
  replace (min_list (logl r)) with x0 in H; auto.
  pose proof (complete_nonempty _ _ _ Hc) as Hne. destruct (min_list_spec _ Hne) as [M1 M2].
  specialize (M2 _ Hin). specialize (Hmin _ M1). lia.
Qed.
Print Assumptions C19_starts_on_lowest.
Example C19_example_one : starts_on [(NInf, 6); (Fin 1, 5)] 1 = 1%nat.
Proof. reflexivity. Qed.
(** Three threads, two of them starting on the first point. *)
Definition run_three : run :=
  mkRun [1; 3; 5; 6] [[10]; [30]; [50]; [60]] [1; 3; 2; 1] (Some [0; 2; 1; 0])
        (Some [(NInf, 6); (Fin 1, 5); (Fin 1, 3)]) None None.
Example C19_example_two : forall r k,
    (let* threads := get_run_threads run_three in combine_threads threads false)
      (@mkW (script_env []) r k) =
    (Ok (mkRun [1; 3; 5; 6] [[10]; [30]; [50]; [60]] [3; 3; 2; 1] (Some [0; 2; 1; 0])
        (Some [(NInf, 6); (Fin 1, 5); (Fin 1, 3)]) None None), @mkW (script_env []) r (WDupStarts :: k)).
Proof. intros. vm_compute. reflexivity. Qed.

(** ** C20 *)
Theorem C20_combine_ns_runs : forall E (rs : list (run * list Z * list (ext * Z))) da dw (w : world E),
    (2 <= length rs)%nat ->
    (forall r labs tmm, In (r, labs, tmm) rs -> complete_run r labs tmm /\ settings r = None) ->
    NoDup (flat_map (fun '(r, _, _) => logl r) rs) ->
    above_some (flat_map snd rs) (flat_map (fun '(r, _, _) => logl r) rs) ->
    exists r labs,
      combine_ns_runs (map (fun '(r, _, _) => r) rs) da dw w = (Ok r, w) /\
      (* in particular sorted, and nlive counts the threads of all runs *)
      complete_run r labs (flat_map snd rs) /\ settings r = None /\
      (* samples stay with their theta and their shifted thread label *)
      Permutation (combine (logl r) (combine labs (theta r))) (merged 0 rs).
Proof.
  intros E rs da dw w Hlen Hok Hnd Ha.
  assert (Hf : flat_map (fun '(r, _, _) => logl r) rs = flat_map (fun x => logl (rs_run x)) rs).
  { apply flat_map_ext. intros [[r labs] tmm]. auto. }
  assert (Hm : map (fun '(r, _, _) => r) rs = map rs_run rs).
  { apply map_ext. intros [[r labs] tmm]. auto. }
  rewrite Hf in *. rewrite Hm.
  destruct (combine_runs_spec E rs da dw w) as (r & labs & H1 & H2 & H3 & H4 & _); auto.
  - intros [[r labs] tmm] Hin. apply (Hok r labs tmm Hin).
  - apply above_some_min; auto. destruct rs as [|[[r labs] tmm] t]; [simpl in Hlen; lia|].
    simpl. destruct (Hok r labs tmm (or_introl eq_refl)) as [Hc _]. apply complete_nonempty in Hc.
    unfold rs_run. simpl. destruct (logl r); [congruence|discriminate].
  - exists r, labs. auto.
Qed.
Print Assumptions C20_combine_ns_runs.
Definition specs_example : list (run * list Z * list (ext * Z)) :=
  [(run_two, [0; 0; 1; 0], [(NInf, 6); (Fin 3, 5)]); (run_other, [1; 0; 1], [(NInf, 4); (NInf, 8)])].
Example C20_example :
  (2 <= length specs_example)%nat /\
  (forall r labs tmm, In (r, labs, tmm) specs_example -> complete_run r labs tmm /\ settings r = None) /\
  NoDup (flat_map (fun '(r, _, _) => logl r) specs_example) /\
  above_some (flat_map snd specs_example) (flat_map (fun '(r, _, _) => logl r) specs_example).
Proof.
  split; [simpl; lia|]. split.
  { intros r labs tmm [H|[H|[]]]; inversion H; subst; split; auto.
    - apply run_two_complete.
    - apply run_other_complete. }
  split; [simpl; repeat (constructor; try (simpl; lia))|].
  intros m e [H|[H|[H|[H|[]]]]]; inversion H; subst. exists 1. simpl. lia.
Qed.
Example C20_example_result : forall r k,
    combine_ns_runs [run_two; run_other] false true (@mkW (script_env []) r k) =
    (Ok (mkRun [1; 2; 3; 4; 5; 6; 8] [[10]; [20]; [30]; [40]; [50]; [60]; [80]]
               [3; 3; 3; 4; 3; 2; 1] (Some [0; 3; 0; 2; 1; 0; 3])
               (Some [(NInf, 6); (Fin 3, 5); (NInf, 4); (NInf, 8)])
               (Some (mkOut None None None [])) None), @mkW (script_env []) r k).
Proof. intros. vm_compute. reflexivity. Qed.

(** ** C21 *)
Theorem C21_combined_valid : forall E runs da dw (w : world E) r w',
    combine_ns_runs runs da dw w = (Ok r, w') ->
    valid_run r /\ (da = true -> NoDup (logl r)) /\
    (forall r0, runs = [r0] -> r = r0) /\ w_rng w' = w_rng w.
Proof. exact combine_runs_valid. Qed.
Print Assumptions C21_combined_valid.
Example C21_example_single : forall r k,
    combine_ns_runs [run_other] false true (@mkW (script_env []) r k) =
    (Ok run_other, @mkW (script_env []) r k).
Proof. intros. vm_compute. reflexivity. Qed.

(** ** C22 *)
Theorem C22_output : forall E runs da dw (w : world E) r w',
    (2 <= length runs)%nat -> combine_ns_runs runs da dw w = (Ok r, w') ->
    exists o, output r = Some o /\ o_root o = None /\ o_other o = [] /\
    forall get, (get = o_nlike \/ get = o_ndead) ->
      (forall vs, Forall2 (fun r v => exists o, output r = Some o /\ get o = Some v) runs vs ->
                  get o = Some (ONum (fold_right Z.add 0 (map total vs)))) /\
      (forall r1, In r1 runs -> (forall o1, output r1 = Some o1 -> get o1 = None) -> get o = None).
Proof.
  intros E runs da dw w r w' Hlen H. rewrite (combine_runs_output _ _ _ _ _ _ _ Hlen H).
  eexists. split; [reflexivity|]. split; [reflexivity|]. split; [reflexivity|].
  intros get Hget. split.
  - intros vs Hv. destruct Hget as [-> | ->]; cbn [o_nlike o_ndead]; rewrite (sum_output_all _ _ _ Hv); auto.
  - intros r1 Hin H1. destruct Hget as [-> | ->]; cbn [o_nlike o_ndead]; rewrite (sum_output_missing _ _ _ Hin H1); auto.
Qed.
Print Assumptions C22_output.
Example C22_example : forall r k,
    let o1 := Some (mkOut (Some (OIter [3; 4])) (Some (ONum 5)) (Some 1) [(1, 2)]) in
    let o2 := Some (mkOut (Some (ONum 70)) None (Some 9) []) in
    match combine_ns_runs [with_output run_two o1; with_output run_other o2] false true
                          (@mkW (script_env []) r k) with
    | (Ok r, _) => output r = Some (mkOut (Some (ONum 77)) None None [])
    | _ => False
    end.
Proof. intros. vm_compute. reflexivity. Qed.

(** ** C23 *)
Theorem C23_combine_threads : forall E threads abp (w : world E) r w',
    combine_threads threads abp w = (Ok r, w') ->
    Permutation (combine (logl r) (theta r))
                (flat_map (fun th => combine (logl th) (theta th)) threads) /\
    StronglySorted Z.le (logl r) /\ length (theta r) = length (logl r) /\ w_rng w' = w_rng w.
Proof. exact combine_threads_samples. Qed.
Print Assumptions C23_combine_threads.
(** A thread given twice: every sample appears twice. *)
Example C23_example : forall r k,
    let th := mkRun [1; 4] [[10]; [40]] [1; 1] (Some [0; 0]) (Some [(NInf, 4)]) None None in
    match combine_threads [th; th] false (@mkW (script_env []) r k) with
    | (Ok r, _) => (logl r, theta r, nlive_array r) = ([1; 1; 4; 4], [[10]; [10]; [40]; [40]], [2; 2; 2; 1])
    | _ => False
    end.
Proof. intros. vm_compute. reflexivity. Qed.

(** ** C24 *)
Definition live_ok (r : run) : Prop :=
  (forall x, In x (nlive_array r) -> 1 <= x) /\ nlive_array r <> [] /\ last (nlive_array r) 0 = 1.

Lemma wmapM_all : forall E A B (f : A -> W E B) (P : B -> Prop) l (w : world E) bs w',
    (forall a w b w', f a w = (Ok b, w') -> P b) -> wmapM f l w = (Ok bs, w') -> Forall P bs.
Proof.
  induction l as [|x t IH]; intros w bs w' Hf H; [inversion H; auto|].
  cbn [wmapM] in H. apply wbind_Ok in H as (y & w1 & H1 & H). apply wbind_Ok in H as (ys & w2 & H2 & H).
  inversion H; subst. constructor; eauto.
Qed.

Theorem C24_nlive_positive : forall E,
    (forall rows tmm (w : world E) r w', dict_given_run_array rows tmm w = (Ok r, w') -> live_ok r) /\
    (forall r0 (w : world E) threads w', get_run_threads r0 w = (Ok threads, w') -> Forall live_ok threads) /\
    (forall threads abp (w : world E) r w', combine_threads threads abp w = (Ok r, w') -> live_ok r) /\
    (forall runs da dw (w : world E) r w', (2 <= length runs)%nat ->
       combine_ns_runs runs da dw w = (Ok r, w') -> live_ok r).
Proof.
  intros E. assert (Hd : forall rows tmm (w : world E) r w',
                       dict_given_run_array rows tmm w = (Ok r, w') -> live_ok r).
  { intros. eapply dict_positive; eauto. }
  split; [exact Hd|]. split; [|split].
  - intros r0 w ths w' H. unfold get_run_threads in H.
    apply wbind_Ok in H as (s & w1 & H1 & H).
    destruct (thread_labels r0), (thread_min_max r0); try discriminate.
    apply wbind_Ok in H as (u & w2 & H2 & H). eapply wmapM_all; [|exact H].
    intros [lab mm] w3 b w4 H3. apply wbind_Ok in H3 as (u3 & w5 & _ & H3). eauto.
  - intros ths abp w r w' H. unfold combine_threads in H. destruct ths as [|th t]; [discriminate|].
    apply wbind_Ok in H as (u1 & w1 & _ & H). apply wbind_Ok in H as (u2 & w2 & _ & H).
    apply wbind_Ok in H as (u3 & w3 & _ & H). apply wbind_Ok in H as (u4 & w4 & _ & H).
    apply wbind_Ok in H as (u5 & w5 & _ & H). apply wbind_Ok in H as (u6 & w6 & _ & H).
    apply wbind_Ok in H as (d & w7 & H7 & H). apply Hd in H7. injection H as H _.
    unfold drop_bad_threads in H. destruct (check_ns_run_threads d) as [|[]]; inversion H; subst; exact H7.
  - intros runs da dw w r w' Hlen H. unfold combine_ns_runs in H.
    destruct runs as [|r1 [|r2 rest]]; [simpl in Hlen; lia|simpl in Hlen; lia|].
    apply wbind_Ok in H as (l & w1 & _ & H). apply wbind_Ok in H as (s & w2 & _ & H).
    apply wbind_Ok in H as (d & w3 & H3 & H). apply wbind_Ok in H as (u & w4 & _ & H).
    apply Hd in H3. inversion H; subst. exact H3.
Qed.
Print Assumptions C24_nlive_positive.
Example C24_example : forall w : world (script_env []),
    dict_given_run_array [mkRow 1 0 0 [10]; mkRow 3 0 1 [30]; mkRow 5 1 (-1) [50]; mkRow 6 0 (-1) [60]]
                         [(NInf, 6); (Fin 3, 5)] w = (Ok run_two, w).
Proof. intros [r k]. vm_compute. reflexivity. Qed.
