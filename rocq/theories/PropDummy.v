(** C58, C59, C71: dummy runs; runs written and processed again. *)
From Verif Require Import Base ModelRun ModelData ModelDummy Spec SpecRun ProofBase ProofMonad ProofDict ProofRun ProofJoin
  ProofDummy ProofDummy2 Envs PropCombine.

(** Draws popped from the script, as integers. *)
Definition pop (n : nat) (s : list nat) : list Z * list nat :=
  (map Z.of_nat (firstn n s ++ repeat 0%nat (n - length s)), skipn n s).
Program Definition script_draws (dflt : list nat) : uniform_draws (script_env dflt) :=
  mkDraws (script_env dflt) pop (fun n s => (repeat [7] n, s)) _ _ _.
Next Obligation. rewrite map_length, app_length, firstn_length, repeat_length. lia. Qed.
Next Obligation. apply in_map_iff in H as (y & <- & _). lia. Qed.
Next Obligation. apply repeat_length. Qed.

(** ** C58 *)
Theorem C58_dummy_thread : forall E (U : uniform_draws E) nsamples sd (w : world E), (1 <= nsamples)%nat ->
    (forall z, sd = Some z -> 0 <= z < 4294967296) ->
    exists th s, get_dummy_thread U nsamples sd NInf w = (Ok th, mkW s (w_warn w)) /\
      length (logl th) = nsamples /\ thread_labels th = Some (repeat 0 nsamples) /\
      (NoDup (logl th) -> complete_run th (repeat 0 nsamples) [(NInf, last (logl th) 0)] /\
         forall w2 : world E, check_ns_run th true true w2 = (Ok tt, w2)).
Proof.
  intros E U n sd w Hn Hz. destruct (dummy_thread_spec E U n sd NInf w Hn Hz) as (th & s & H1 & H2).
  exists th, s. split; [auto|]. pose proof H2 as (D1 & D2 & D3 & D4 & D5 & D6 & D7 & D8 & D9).
  split; [auto|]. split; [auto|]. intros Hnd.
  assert (Hne : logl th <> []) by (intros He; rewrite He in D1; simpl in D1; lia).
  assert (Hc : complete_run th (repeat 0 n) [(NInf, last (logl th) 0)]).
  { assert (Hcon : consistent th (repeat 0 n) [(NInf, last (logl th) 0)]).
    { split; [auto|]. split; [auto|]. unfold valid_columns.
      rewrite D1, D2, D3, !repeat_length. cbn [map ext_opt fst snd length].
      repeat (split; [solve [auto]|]).
      split; [|split; [left; auto|]].
      - intros x. split.
        + intros Hx. apply repeat_spec in Hx. lia.
        + intros Hx. assert (x = 0) by lia. subst x. destruct n; [lia|left; auto].
      - intros k Hk. assert (k = 0%nat) by lia. subst k. cbn [nth Z.of_nat]. split.
        + intros f m _ Hm. discriminate.
        + intros l (L1 & L2 & L3). rewrite repeat_length in L1, L3. rewrite last_nth, D1. f_equal.
          destruct (le_lt_dec (n - 1) l) as [|Hlt]; [lia|]. exfalso. apply (L3 (n - 1)%nat); [lia|].
          apply (repeat_spec n 0), nth_In. rewrite repeat_length. lia. }
    split; [auto|]. split; [auto|]. split; [|split].
    - intros k f Hk Hf. assert (k = 0%nat) by (cbn in Hk; lia). subst k. auto.
    - intros m e [Hm|[]]. discriminate.
    - intros i Hi. rewrite D3. cbn [live_at].
      assert (H1r : nth i (repeat 1 n) 0 = 1) by (apply (repeat_spec n), nth_In; rewrite repeat_length; lia).
      rewrite H1r. unfold live_at, covers. cbn [filter fst snd starts_below andb].
      replace (nth i (logl th) 0 <=? last (logl th) 0) with true; auto. symmetry. apply Z.leb_le.
      rewrite last_nth. apply ssorted_le_nth_le; auto. lia. }
  split; [auto|]. intros w2. apply (check_run_ok E th (repeat 0 n) [(NInf, last (logl th) 0)]); auto. apply Hc.
Qed.
Print Assumptions C58_dummy_thread.

(** For every outcome of the draws with distinct values. *)
Theorem C58_dummy_run : forall E (U : uniform_draws E) nthread nsamples sd (w : world E) threads w1,
    (1 <= nthread)%nat -> (1 <= nsamples)%nat ->
    (let* _ := maybe_seed sd in
     wmapM (fun _ => get_dummy_thread U nsamples None NInf) (seq 0 nthread)) w = (Ok threads, w1) ->
    NoDup (flat_map logl threads) ->
    exists r labs tmm, get_dummy_run U nthread nsamples sd NInf w = (Ok r, w1) /\
      complete_run r labs tmm /\ length tmm = nthread /\
      (forall mm, In mm tmm -> fst mm = NInf) /\
      (forall k, 0 <= k < Z.of_nat nthread -> length (filter (Z.eqb k) labs) = nsamples) /\
      Permutation (combine (logl r) (theta r)) (flat_map (fun th => combine (logl th) (theta th)) threads) /\
      forall w2 : world E, check_ns_run r true true w2 = (Ok tt, w2).
Proof.
  intros E U nthread n sd w ths w1 Ht Hn H Hnd.
  destruct (dummy_run_spec E U nthread n sd w ths w1 Ht Hn H Hnd) as (r & labs & tmm & R1 & R2 & R3 & R4 & R5 & R6 & R7 & R8).
  exists r, labs, tmm. repeat (split; [solve [auto]|]). split; [|split; [auto|]].
  - intros k Hk. rewrite <- (Z2Nat.id k) by lia. apply R7. lia.
  - intros w2. apply (check_run_ok E r labs tmm); auto; apply R2.
Qed.
Print Assumptions C58_dummy_run.

(** The threads can always be drawn. *)
Theorem C58_draws : forall E (U : uniform_draws E) nthread nsamples sd (w : world E), (1 <= nsamples)%nat ->
    (forall z, sd = Some z -> 0 <= z < 4294967296) ->
    exists threads s, (let* _ := maybe_seed sd in
     wmapM (fun _ => get_dummy_thread U nsamples None NInf) (seq 0 nthread)) w = (Ok threads, mkW s (w_warn w)) /\
     length threads = nthread /\ forall th, In th threads -> length (logl th) = nsamples.
Proof.
  intros E U nthread n sd w Hn Hz.
  assert (Hsd : exists s, maybe_seed sd w = (Ok tt, @mkW E s (w_warn w))).
  { destruct sd as [z|]; [exists (r_seed E z); apply seed_run; auto|exists (w_rng w); destruct w; reflexivity]. }
  destruct Hsd as [s Hsd]. rewrite (wbind_run _ _ _ _ _ _ _ _ Hsd). clear Hsd.
  revert s. generalize 0%nat as a. induction nthread as [|k IH]; intros a s.
  - exists [], s. repeat split. intros th [].
  - destruct (dummy_thread_spec E U n None NInf (mkW s (w_warn w)) Hn ltac:(discriminate)) as (th & s1 & H1 & D1 & _).
    destruct (IH (S a) s1) as (ths & s2 & I1 & I2 & I3).
    exists (th :: ths), s2. cbn [seq wmapM]. rewrite (wbind_run _ _ _ _ _ _ _ _ H1). cbn [w_warn].
    rewrite (wbind_run _ _ _ _ _ _ _ _ I1). split; [auto|]. split; [cbn; auto|].
    intros t [<-|Ht]; auto.
Qed.
Print Assumptions C58_draws.
(** A seed which np.random.seed does not accept: nothing is drawn. *)
Theorem C58_bad_seed : forall E (U : uniform_draws E) z (w : world E), ~ 0 <= z < 4294967296 ->
    (forall nsamples start, get_dummy_thread U nsamples (Some z) start w = (Raise ValueError, w)) /\
    (forall nthread nsamples start, get_dummy_run U nthread nsamples (Some z) start w = (Raise ValueError, w)) /\
    (forall nsamples a b init, get_dummy_dynamic_run U nsamples a b (Some z) init w = (Raise ValueError, w)).
Proof.
  intros E U z w H. assert (Hs : maybe_seed (Some z) w = (Raise ValueError, w)) by (apply seed_bad; auto).
  repeat split; intros; unfold get_dummy_thread, get_dummy_dynamic_run, get_dummy_run; unfold wbind; rewrite Hs; reflexivity.
Qed.
Print Assumptions C58_bad_seed.

Example C58_example :
    fst (get_dummy_run (script_draws []) 2 2 None NInf (@mkW (script_env []) [4; 3; 1; 8]%nat [])) =
    Ok (mkRun [1; 3; 4; 8] [[7]; [7]; [7]; [7]] [2; 2; 2; 1] (Some [0; 1; 1; 0])
              (Some [(NInf, 8); (NInf, 4)]) None None).
Proof. vm_compute. reflexivity. Qed.
(** Without samples no thread is made. *)
Example C58_example_empty : forall w : world (script_env []),
    fst (get_dummy_thread (script_draws []) 0 None NInf w) = Raise IndexError.
Proof. intros w; reflexivity. Qed.

(** ** C59 *)
Theorem C59_dynamic_run : forall E (U : uniform_draws E) nsamples nthread_init nthread_dyn sd logl_init (w : world E)
      init w1 starts w2 dyn w3 lowest,
    (1 <= nsamples)%nat -> (1 <= nthread_init)%nat -> logl_init < 0 ->
    get_dummy_run U nthread_init nsamples sd NInf w = (Ok init, w1) ->
    choice_n (logl init) nthread_dyn w1 = (Ok starts, w2) ->
    wmapM (fun s => get_dummy_thread U nsamples None (Fin s)) starts w2 = (Ok dyn, w3) ->
    NoDup (logl init ++ flat_map logl dyn) ->
    In lowest (logl init) -> (forall x, In x (logl init) -> lowest <= x) ->
    (occurs lowest starts = 1%nat ->
       get_dummy_dynamic_run U nsamples nthread_init nthread_dyn sd logl_init w = (Raise AssertionError, w3)) /\
    (occurs lowest starts <> 1%nat -> exists r labs tmm w',
       get_dummy_dynamic_run U nsamples nthread_init nthread_dyn sd logl_init w = (Ok r, w') /\
       complete_run r labs tmm /\
       Permutation (logl r) (logl init ++ flat_map logl dyn) /\
       (forall i, (i < length (logl r))%nat -> nth i (nlive_array r) 0 =
          Z.of_nat (length (filter (fun mm => starts_below (fst mm) (nth i (logl r) 0) && (nth i (logl r) 0 <=? snd mm))
                     (get_tmm init ++ combine (map Fin starts) (map (fun th => last (logl th) 0) dyn))))) /\
       forall w2 : world E, check_ns_run r true true w2 = (Ok tt, w2)).
Proof.
  intros E U n ni nd sd li w init w1 starts w2 dyn w3 x0 Hn Hi Hli H1 H2 H3 Hnd Hx Hm.
  assert (Hoc : occurs x0 starts = length (filter (Z.eqb x0) starts)).
  { clear. unfold occurs. induction starts as [|y t IH]; auto. cbn.
    destruct (Z.eq_dec y x0) as [->|Hne]; [rewrite Z.eqb_refl; cbn; auto|].
    destruct (Z.eqb_spec x0 y); [congruence|auto]. }
  rewrite Hoc.
  destruct (dynamic_spec E U n ni nd sd li w init w1 starts w2 dyn w3 x0 Hn Hi Hli H1 H2 H3 Hnd Hx Hm) as [D1 D2].
  split; [exact D1|]. intros Hc. destruct (D2 Hc) as (r & labs & tmm & w' & R1 & R2 & R3 & R4 & R5 & R6 & R7).
  exists r, labs, tmm, w'. repeat (split; [solve [auto]|]).
  intros w4. apply (check_run_ok E r labs tmm); auto; apply R3.
Qed.
Print Assumptions C59_dynamic_run.

(** Two dynamic threads, starting at 3 and 4; the lowest point is 1.  The
    second continues the thread which ended at 4. *)
Example C59_example :
    fst (get_dummy_dynamic_run (script_draws []) 2 2 2 None (-10)
           (@mkW (script_env []) [4; 3; 1; 8; 1; 2; 2; 11; 6; 9]%nat [])) =
    Ok (mkRun [1; 3; 4; 5; 8; 10; 13; 14] (repeat [7] 8) [2; 2; 3; 3; 3; 2; 2; 1]
              (Some [0; 1; 1; 2; 0; 1; 1; 2]) (Some [(NInf, 8); (NInf, 13); (Fin 3, 14)]) None None).
Proof. vm_compute. reflexivity. Qed.

(** One dynamic thread starting at the lowest point. *)
Theorem C59_refuted :
    ~ (forall E (U : uniform_draws E) nsamples nthread_init nthread_dyn sd logl_init (w : world E) init w1 starts w2 dyn w3,
         (1 <= nsamples)%nat -> (1 <= nthread_init)%nat -> logl_init < 0 ->
         get_dummy_run U nthread_init nsamples sd NInf w = (Ok init, w1) ->
         choice_n (logl init) nthread_dyn w1 = (Ok starts, w2) ->
         wmapM (fun s => get_dummy_thread U nsamples None (Fin s)) starts w2 = (Ok dyn, w3) ->
         NoDup (logl init ++ flat_map logl dyn) ->
         exists r w', get_dummy_dynamic_run U nsamples nthread_init nthread_dyn sd logl_init w = (Ok r, w')).
Proof.
  intros H.
  destruct (H (script_env []) (script_draws []) 2%nat 2%nat 2%nat None (-10)
       (@mkW (script_env []) [4; 3; 1; 8; 0; 2; 5; 11; 6; 9]%nat [])
       (mkRun [1; 3; 4; 8] [[7]; [7]; [7]; [7]] [2; 2; 2; 1] (Some [0; 1; 1; 0]) (Some [(NInf, 8); (NInf, 4)]) None None)
       (@mkW (script_env []) [0; 2; 5; 11; 6; 9]%nat [])
       [1; 4]
       (@mkW (script_env []) [5; 11; 6; 9]%nat [])
       [mkRun [6; 12] [[7]; [7]] [1; 1] (Some [0; 0]) (Some [(Fin 1, 12)]) None None;
        mkRun [10; 13] [[7]; [7]] [1; 1] (Some [0; 0]) (Some [(Fin 4, 13)]) None None]
       (@mkW (script_env []) [] [])) as (r & w' & Hr); try lia; try (vm_compute; reflexivity).
  - cbn. repeat (constructor; [cbn; lia|]). constructor.
  - vm_compute in Hr. discriminate.
Qed.
Print Assumptions C59_refuted.

(** ** C71: writing and processing again *)
Theorem C71_round_trip : forall E r labs tmm logl_init da dw (w : world E),
    complete_run r labs tmm -> settings r = None -> (forall x, In x (logl r) -> logl_init < x) ->
    exists r' labs' tmm' w',
      (let* samples := run_dead_birth_array r logl_init da dw in process_samples_array samples da dw) w = (Ok r', w') /\
      logl r' = logl r /\ theta r' = theta r /\ nlive_array r' = nlive_array r /\
      complete_run r' labs' tmm' /\ w_rng w' = w_rng w.
Proof.
  intros E r labs tmm li da dw w Hc Hs Hi.
  destruct (reprocess E r labs tmm li da dw w (complete_sound _ _ _ Hc) Hs Hi)
    as (r' & labs' & tmm' & w' & R1 & R2 & R3 & R4 & R5 & R6 & R7 & R8).
  exists r', labs', tmm', w'. repeat (split; [solve [auto]|]). split; [|split; auto].
  rewrite R8. destruct Hc as ((_ & _ & V1 & _) & _ & _ & _ & Hn).
  apply nth_ext' with (d := 0); [rewrite map_length; auto|].
  intros i Hk. rewrite map_length in Hk. rewrite (map_nth_in _ _ _ 0 0), Hn; auto.
Qed.
Print Assumptions C71_round_trip.

(** The threads may come back differently: here 4 starts a thread where another
    one ended. *)
Definition run_touching : run :=
  mkRun [2; 4; 6; 7] [[20]; [40]; [60]; [70]] [2; 2; 2; 1] (Some [0; 0; 1; 2])
        (Some [(NInf, 4); (NInf, 6); (Fin 4, 7)]) None None.
Lemma run_touching_complete : complete_run run_touching [0; 0; 1; 2] [(NInf, 4); (NInf, 6); (Fin 4, 7)].
Proof.
  unfold complete_run, consistent, valid_columns, run_touching. cbn [logl theta nlive_array thread_labels thread_min_max length map fst snd ext_opt].
  split.
  { split; [reflexivity|]. split; [reflexivity|].
    split; [reflexivity|]. split; [reflexivity|]. split; [reflexivity|].
    split; [repeat (constructor; try lia)|]. split; [reflexivity|].
    split; [simpl; intros; lia|]. split; [simpl; auto|].
    intros k Hk. split.
    - intros f m (F1 & F2 & F3). cbn [length] in F1.
      destruct k as [|[|[|k]]]; simpl; try lia; try discriminate. intros Hm. inversion Hm; subst.
      four f; simpl in *; try lia.
    - intros l (L1 & L2 & L3). cbn [length] in L1, L3.
      destruct k as [|[|[|k]]]; try lia; four l; simpl in *; try lia.
      specialize (L3 1%nat ltac:(lia)). simpl in L3. lia. }
  split; [repeat (constructor; try (simpl; lia))|].
  split.
  { intros k f Hk (F1 & F2 & F3). destruct k as [|[|[|k]]]; simpl in *; try lia; auto.
    four f; simpl in *; try lia; auto. }
  split.
  { intros m e [H|[H|[H|[]]]]; inversion H; subst; simpl; auto. }
  intros i Hi. four i; simpl in *; try lia; reflexivity.
Qed.
Example C71_example : forall w : world (script_env []),
    (let* samples := run_dead_birth_array run_touching (-10) true true in process_samples_array samples true true) w =
    (Ok (mkRun [2; 4; 6; 7] [[20]; [40]; [60]; [70]] [2; 2; 2; 1] (Some [0; 0; 1; 0])
        (Some [(NInf, 7); (NInf, 6)]) None None), w).
Proof. intros [s k]. vm_compute. reflexivity. Qed.
(** With a starting value which is not below the points the counts change
    without any error. *)
Example C71_example_start : forall w : world (script_env []),
    (let* samples := run_dead_birth_array run_touching 2 true true in process_samples_array samples true true) w =
    (Ok (mkRun [2; 4; 6; 7] [[20]; [40]; [60]; [70]] [3; 2; 2; 1] (Some [0; 1; 2; 1])
        (Some [(NInf, 2); (NInf, 7); (NInf, 6)]) None None), w).
Proof. intros [s k]. vm_compute. reflexivity. Qed.
