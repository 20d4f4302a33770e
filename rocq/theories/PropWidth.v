(** C109: runs and threads with different numbers of parameters. *)
From Verif Require Import Base ModelRun ModelBoot ModelWidth Envs Spec SpecRun ProofBase ProofMonad ProofRun ProofRuns ProofComb
                          ProofBoot PropCombine.

(** [k] parameters *)
Definition has_params (k : nat) (r : run) : Prop := forall t, In t (theta r) -> length t = k.
Definition one_width (runs : list run) : Prop := exists k, Forall (has_params k) runs.

Lemma array_theta : forall r rows, array_given_run r = Ok rows -> map r_theta rows = theta r /\ rows <> [].
Proof.
  intros r rows H. unfold array_given_run in H. destruct (thread_labels r) as [labs|]; [|discriminate].
  destruct (Nat.eqb_spec (length (logl r)) 0) as [|Hn]; [discriminate|].
  destruct (_ && _)%bool eqn:Hb; [|discriminate]. injection H as <-.
  apply andb_true_iff in Hb as [Hb H3]. apply andb_true_iff in Hb as [H1 H2].
  apply Nat.eqb_eq in H1, H2, H3.
  assert (Hd : length (diff (nlive_array r) ++ [-1]) = length (logl r)).
  { rewrite app_length, diff_length. cbn [length]. lia. }
  split; [apply zip_rows_theta; auto|].
  intros He. apply (f_equal (@length row)) in He. rewrite zip_rows_length in He by auto. cbn in He. lia.
Qed.
Lemma arrays_theta : forall runs arrs, mapM array_given_run runs = Ok arrs ->
    map r_theta (concat arrs) = flat_map theta runs.
Proof.
  intros runs arrs H. apply mapM_Ok in H. induction H as [|r rows runs arrs H1 _ IH]; auto.
  cbn [concat flat_map]. rewrite map_app, IH. f_equal. apply (array_theta r rows H1).
Qed.
Lemma vstack_ok : forall arrs, (exists k, forall x, In x (concat arrs) -> length (r_theta x) = k) ->
    vstack arrs = Ok (concat arrs).
Proof.
  intros arrs (k & H). unfold vstack. destruct (concat arrs) as [|x t]; auto.
  replace (forallb _ t) with true; auto. symmetry. apply forallb_forall. intros y Hy. apply Nat.eqb_eq.
  rewrite (H x) by (left; auto). apply H. right. auto.
Qed.
Lemma vstack_inv : forall arrs rows, vstack arrs = Ok rows ->
    rows = concat arrs /\ exists k, forall x, In x (concat arrs) -> length (r_theta x) = k.
Proof.
  intros arrs rows H. unfold vstack in H. destruct (concat arrs) as [|x t].
  - injection H as <-. split; auto. exists 0%nat. intros x [].
  - destruct (forallb _ t) eqn:Hf; [|discriminate]. injection H as <-. split; auto.
    exists (length (r_theta x)). intros y [<-|Hy]; auto. rewrite forallb_forall in Hf. apply Nat.eqb_eq, Hf. auto.
Qed.
Lemma vstack_bad : forall arrs, ~ (exists k, forall x, In x (concat arrs) -> length (r_theta x) = k) ->
    vstack arrs = Raise ValueError.
Proof.
  intros arrs H. destruct (vstack arrs) as [rows|e] eqn:Hv; [exfalso; apply H; apply (vstack_inv _ _ Hv)|].
  unfold vstack in Hv. destruct (concat arrs) as [|x t]; [discriminate|]. destruct (forallb _ t); [discriminate|congruence].
Qed.
Lemma widths_iff : forall runs arrs, mapM array_given_run runs = Ok arrs ->
    (one_width runs <-> exists k, forall x, In x (concat arrs) -> length (r_theta x) = k).
Proof.
  intros runs arrs H. apply arrays_theta in H. unfold one_width, has_params. split; intros (k & Hk); exists k.
  - intros x Hx. apply (in_map r_theta) in Hx. rewrite H in Hx. apply in_flat_map in Hx as (r & Hr & Hx).
    rewrite Forall_forall in Hk. apply (Hk r); auto.
  - apply Forall_forall. intros r Hr t Ht. assert (Hi : In t (flat_map theta runs)) by (apply in_flat_map; eauto).
    rewrite <- H in Hi. apply in_map_iff in Hi as (x & <- & Hx). auto.
Qed.
Lemma relabel_theta : forall E da dw runs t (w : world E) rl w', relabel_runs t runs da dw w = (Ok rl, w') ->
    map theta rl = map theta runs.
Proof.
  intros E da dw. induction runs as [|r runs IH]; intros t w rl w' H; cbn [relabel_runs] in H.
  - injection H as <- _. auto.
  - apply wbind_Ok in H as (u & w1 & _ & H). destruct (thread_labels r), (thread_min_max r); try discriminate.
    apply wbind_Ok in H as (rl' & w2 & H1 & H). injection H as <- _. cbn [map theta]. f_equal. eapply IH; eauto.
Qed.
Lemma one_width_map : forall a b, map theta a = map theta b -> one_width a -> one_width b.
Proof.
  intros a b H (k & Hk). exists k. rewrite Forall_forall in *. intros r Hr.
  assert (Hi : In (theta r) (map theta a)) by (rewrite H; apply in_map; auto).
  apply in_map_iff in Hi as (r' & He & Hr'). unfold has_params. rewrite <- He. apply Hk. auto.
Qed.
Lemma lift_Ok : forall E A (m : res A) (w : world E) x w', wlift m w = (Ok x, w') -> m = Ok x.
Proof. intros E A m w x w' H. unfold wlift in H. congruence. Qed.
Lemma dict_theta : forall E samples tmm (w : world E) r w', dict_given_run_array samples tmm w = (Ok r, w') ->
    theta r = map r_theta samples.
Proof.
  intros E samples tmm w r w' H. unfold dict_given_run_array in H. destruct samples as [|x t]; [discriminate|].
  cbv zeta in H. apply wbind_Ok in H as (? & ? & _ & H). apply wbind_Ok in H as (? & ? & _ & H).
  apply wbind_Ok in H as (? & ? & _ & H). apply wbind_Ok in H as (? & ? & _ & H). injection H as <- _. reflexivity.
Qed.
Lemma sorted_params : forall E k rows tmm (w : world E) r w', (forall x, In x rows -> length (r_theta x) = k) ->
    dict_given_run_array (sort_rows E rows) tmm w = (Ok r, w') -> has_params k r.
Proof.
  intros E k rows tmm w r w' Hk H t Ht. apply dict_theta in H. rewrite H in Ht. apply in_map_iff in Ht as (x & <- & Hx).
  apply Hk. apply (Permutation_in _ (sort_rows_perm E rows)). auto.
Qed.

(** ** combine_ns_runs *)
(** With one number of parameters everything is as in ModelRun.v, so that what
    is proved there (C20, C21, C22, ...) holds. *)
Theorem C109_runs_same : forall E runs da dw (w : world E), one_width runs ->
    combine_ns_runs_2d runs da dw w = combine_ns_runs runs da dw w.
Proof.
  intros E runs da dw w Hw. destruct runs as [|r1 [|r2 runs]]; auto. unfold combine_ns_runs_2d, combine_ns_runs.
  unfold wbind at 1 6. destruct (relabel_runs 0 (r1 :: r2 :: runs) da dw w) as [[rl|e] w1] eqn:Hr; auto.
  cbv zeta. unfold wbind at 1 5, wlift at 1 3. destruct (mapM array_given_run rl) as [arrs|e] eqn:Ha; auto.
  unfold wbind at 1, wlift. rewrite (vstack_ok arrs); auto. apply (widths_iff _ _ Ha).
  apply (one_width_map (r1 :: r2 :: runs)); auto. symmetry. eapply relabel_theta; eauto.
Qed.
Print Assumptions C109_runs_same.

(** Whenever it succeeds the runs have one number of parameters, which is that
    of the combined run.  A single run is returned as it is. *)
Theorem C109_runs_success : forall E runs da dw (w : world E) r w', combine_ns_runs_2d runs da dw w = (Ok r, w') ->
    combine_ns_runs runs da dw w = (Ok r, w') /\
    ((2 <= length runs)%nat -> exists k, Forall (has_params k) runs /\ has_params k r) /\
    (forall r0, runs = [r0] -> r = r0).
Proof.
  intros E runs da dw w r w' H.
  destruct runs as [|r1 [|r2 runs]]; [discriminate|split; [auto|split; [cbn; lia|]]|].
  { intros r0 Hr0. injection Hr0 as ->. cbn in H. apply wbind_Ok in H as (? & ? & _ & H). injection H as <- _. auto. }
  assert (Hk : exists k, Forall (has_params k) (r1 :: r2 :: runs) /\ has_params k r).
  { unfold combine_ns_runs_2d in H. apply wbind_Ok in H as (rl & w1 & Hr & H). cbv zeta in H.
    apply wbind_Ok in H as (arrs & w2 & Ha & H). apply lift_Ok in Ha.
    apply wbind_Ok in H as (rows & w3 & Hv & H). apply lift_Ok in Hv.
    apply vstack_inv in Hv as (-> & k & Hk).
    assert (Ho : Forall (has_params k) (r1 :: r2 :: runs)).
    { apply relabel_theta in Hr. apply arrays_theta in Ha. apply Forall_forall. intros x Hx t Ht.
      assert (Hi : In t (flat_map theta rl)).
      { rewrite flat_map_concat_map, Hr, <- flat_map_concat_map. apply in_flat_map. eauto. }
      rewrite <- Ha in Hi. apply in_map_iff in Hi as (y & <- & Hy). auto. }
    exists k. split; auto.
    apply wbind_Ok in H as (r' & w4 & Hd & H). apply wbind_Ok in H as (u & w5 & _ & H). injection H as <- _.
    intros t Ht. cbn [with_output theta] in Ht. eapply (sorted_params E k (concat arrs)); eauto. }
  split; [|split; [auto|discriminate]]. rewrite <- H. symmetry. apply C109_runs_same.
  destruct Hk as (k & Hk & _). exists k. auto.
Qed.
Print Assumptions C109_runs_success.

(** Valid runs with different numbers of parameters: ValueError, and nothing
    is changed. *)
Theorem C109_runs_different : forall E (rs : list (run * list Z * list (ext * Z))) da dw (w : world E),
    (forall r labs tmm, In (r, labs, tmm) rs -> complete_run r labs tmm /\ settings r = None) ->
    (forall k, ~ Forall (has_params k) (map (fun '(r, _, _) => r) rs)) ->
    (2 <= length rs)%nat ->
    combine_ns_runs_2d (map (fun '(r, _, _) => r) rs) da dw w = (Raise ValueError, w).
Proof.
  intros E rs da dw w Hok Hw Hlen.
  assert (Hm : map (fun '(r, _, _) => r) rs = map rs_run rs) by (apply map_ext; intros [[r labs] tmm]; auto).
  rewrite Hm in *.
  assert (Hok' : forall x, In x rs -> rs_ok x) by (intros [[r labs] tmm] Hin; apply (Hok r labs tmm Hin)).
  destruct (relabelled_rows rs 0 Hok') as (l & L1 & _).
  pose proof (relabel_spec E rs 0 da dw w Hok') as Hr. pose proof (relabel_theta _ _ _ _ _ _ _ _ Hr) as Ht.
  destruct (map rs_run rs) as [|r1 [|r2 runs]] eqn:He.
  1,2: apply (f_equal (@length run)) in He; rewrite map_length in He; cbn in He; lia.
  unfold combine_ns_runs_2d. rewrite (wbind_run _ _ _ _ _ _ _ _ Hr). cbv zeta. unfold wbind at 1, wlift at 1. rewrite L1.
  unfold wbind at 1, wlift at 1. rewrite vstack_bad; auto. rewrite <- (widths_iff _ _ L1). intros Ho.
  apply (one_width_map _ _ Ht) in Ho as (k & Hk). apply (Hw k Hk).
Qed.
Print Assumptions C109_runs_different.

(** ** combine_threads *)
Theorem C109_threads_same : forall E threads abp (w : world E), one_width threads ->
    combine_threads_2d threads abp w = combine_threads threads abp w.
Proof.
  intros E threads abp w Hw. destruct threads as [|t0 threads]; auto. unfold combine_threads_2d, combine_threads.
  cbv zeta. unfold wbind at 1 9, wassert, wlift at 1 5. destruct (assertb _); auto.
  unfold wbind at 1 8, wlift at 1 4. destruct (mapM array_given_run (t0 :: threads)) as [arrs|e] eqn:Ha; auto.
  unfold wbind at 1, wlift at 1. rewrite (vstack_ok arrs); auto. apply (widths_iff _ _ Ha). auto.
Qed.
Print Assumptions C109_threads_same.
Theorem C109_threads_success : forall E threads abp (w : world E) r w', combine_threads_2d threads abp w = (Ok r, w') ->
    combine_threads threads abp w = (Ok r, w') /\ exists k, Forall (has_params k) threads /\ has_params k r.
Proof.
  intros E threads abp w r w' H.
  assert (Hk : exists k, Forall (has_params k) threads /\ has_params k r).
  { unfold combine_threads_2d in H. destruct threads as [|t0 threads]; [discriminate|]. cbv zeta in H.
    apply wbind_Ok in H as (u1 & w1 & _ & H). apply wbind_Ok in H as (arrs & w2 & Ha & H). apply lift_Ok in Ha.
    apply wbind_Ok in H as (rows & w3 & Hv & H). apply lift_Ok in Hv. apply vstack_inv in Hv as (-> & k & Hk).
    exists k. split.
    - apply arrays_theta in Ha. apply Forall_forall. intros x Hx t Ht.
      assert (Hi : In t (flat_map theta (t0 :: threads))) by (apply in_flat_map; eauto).
      rewrite <- Ha in Hi. apply in_map_iff in Hi as (y & <- & Hy). auto.
    - apply wbind_Ok in H as (st & w4 & _ & H). apply wbind_Ok in H as (u2 & w5 & _ & H).
      apply wbind_Ok in H as (rows' & w6 & Hf & H). apply wbind_Ok in H as (u3 & w7 & _ & H).
      apply wbind_Ok in H as (r' & w8 & Hd & H). apply lift_Ok in H.
      assert (Hth : theta r = theta r').
      { unfold drop_bad_threads in H. destruct (check_ns_run_threads r') as [?|[]]; try discriminate; injection H as <-; reflexivity. }
      assert (Hs : forall x, In x (sort_rows E (concat arrs)) -> length (r_theta x) = k).
      { intros x Hx. apply Hk. apply (Permutation_in _ (sort_rows_perm E _)). auto. }
      revert Hf Hs. generalize (sort_rows E (concat arrs)). generalize w5 as v. generalize (finite_starts (flat_map get_tmm (t0 :: threads))) as ss.
      intros ss. induction ss as [|s ss IH]; intros v rows Hf Hs; cbn [wfoldM] in Hf.
      + injection Hf as <- <-. intros t Ht. rewrite Hth, (dict_theta _ _ _ _ _ _ Hd) in Ht. apply in_map_iff in Ht as (x & <- & Hx). auto.
      + apply wbind_Ok in Hf as (rows1 & v1 & Hb & Hf). apply (IH _ _ Hf). intros x Hx.
        assert (Hm : map r_theta rows1 = map r_theta rows).
        { unfold add_start in Hb. apply wbind_Ok in Hb as (? & v2 & _ & Hb).
          assert (Hbump : forall i, map r_theta (bump i rows) = map r_theta rows).
          { clear. unfold bump. intros i. revert i. induction rows as [|y rows IH]; intros [|i]; auto. cbn. f_equal. apply IH. }
          destruct (where_ _ rows) as [|i [|j l]].
          - injection Hb as <- _. apply Hbump.
          - injection Hb as <- _. apply Hbump.
          - apply wbind_Ok in Hb as (m & v3 & _ & Hb). injection Hb as <- _. apply Hbump. }
        assert (Hi : In (r_theta x) (map r_theta rows)) by (rewrite <- Hm; apply in_map; auto).
        apply in_map_iff in Hi as (y & <- & Hy). auto. }
  split; auto. rewrite <- H. symmetry. apply C109_threads_same. destruct Hk as (k & Hk & _). exists k. auto.
Qed.
Print Assumptions C109_threads_success.
Theorem C109_threads_different : forall E threads abp (w : world E),
    (forall th, In th threads -> length (get_tmm th) = 1%nat /\ exists rows, array_given_run th = Ok rows) ->
    (forall k, ~ Forall (has_params k) threads) ->
    combine_threads_2d threads abp w = (Raise ValueError, w).
Proof.
  intros E threads abp w Hok Hw. destruct threads as [|t0 threads]; [auto|]. unfold combine_threads_2d. cbv zeta.
  assert (Hl : length (t0 :: threads) = length (flat_map get_tmm (t0 :: threads))).
  { clear Hw. revert Hok. generalize (t0 :: threads). intros l. induction l as [|x l IH]; intros Hok; auto.
    cbn [flat_map length]. rewrite app_length, (proj1 (Hok x (or_introl eq_refl))), <- IH; auto. intros; apply Hok; right; auto. }
  unfold wbind at 1, wassert, wlift at 1. rewrite Hl, Nat.eqb_refl. cbn [assertb].
  destruct (mapM array_given_run (t0 :: threads)) as [arrs|e] eqn:Ha.
  - unfold wbind at 1, wlift at 1. unfold wbind at 1, wlift at 1. rewrite vstack_bad; auto.
    rewrite <- (widths_iff _ _ Ha). intros (k & Hk). apply (Hw k Hk).
  - exfalso. clear Hw Hl. revert Hok Ha. generalize (t0 :: threads). intros l. revert e. induction l as [|x l IH]; intros e Hok Ha; [discriminate|].
    cbn [mapM] in Ha. destruct (Hok x (or_introl eq_refl)) as (_ & rows & Hx). rewrite Hx in Ha. cbn [rbind] in Ha.
    destruct (mapM array_given_run l) as [ys|e'] eqn:Hl; [discriminate|]. apply (IH e'); auto. intros; apply Hok; right; auto.
Qed.
Print Assumptions C109_threads_different.

(** ** bootstrap_resample_run *)
Lemma thread_dn_theta : forall rows, map r_theta (thread_dn rows) = map r_theta rows.
Proof. intros rows. induction rows as [|x [|y t] IH]; auto. cbn [thread_dn map] in *. f_equal. apply IH. Qed.
Lemma threads_params : forall E k r (w : world E) ths w', has_params k r -> get_run_threads r w = (Ok ths, w') ->
    Forall (has_params k) ths.
Proof.
  intros E k r w ths w' Hk H. unfold get_run_threads in H. apply wbind_Ok in H as (samples & w1 & Ha & H).
  apply lift_Ok in Ha. apply array_theta in Ha as (Ha & _).
  destruct (thread_labels r) as [labs|]; [|discriminate]. destruct (thread_min_max r) as [tmm|]; [|discriminate]. cbv zeta in H.
  apply wbind_Ok in H as (u & w2 & _ & H). eapply wmapM_all; [|exact H]. intros [lab mm] v th v' Hth.
  cbv zeta in Hth. apply wbind_Ok in Hth as (? & ? & _ & Hd). intros t Ht. rewrite (dict_theta _ _ _ _ _ _ Hd) in Ht.
  rewrite thread_dn_theta in Ht. apply in_map_iff in Ht as (y & <- & Hy). apply filter_In in Hy as [Hy _].
  apply Hk. rewrite <- Ha. apply in_map. auto.
Qed.
Lemma bind_ext : forall E A B (m : W E A) (f g : A -> W E B) (w : world E),
    (forall x w1, m w = (Ok x, w1) -> f x w1 = g x w1) -> wbind m f w = wbind m g w.
Proof. intros E A B m f g w H. unfold wbind. destruct (m w) as [[x|e] w1]; auto. Qed.
Theorem C109_bootstrap : forall E k r threads ns b (w : world E),
    has_params k r -> (forall ths, threads = Some ths -> Forall (has_params k) ths) ->
    bootstrap_resample_run_2d r threads ns b w = bootstrap_resample_run r threads ns b w /\
    forall rr w', bootstrap_resample_run r threads ns b w = (Ok rr, w') -> has_params k rr.
Proof.
  intros E k r threads ns b w Hr Hth.
  assert (Hdrawn : forall ths inds (v : world E) drawn v', Forall (has_params k) ths -> wmapM (get_thread ths) inds v = (Ok drawn, v') ->
             Forall (has_params k) drawn).
  { intros ths inds v drawn v' Hf H. revert inds drawn v v' H. induction inds as [|i inds IH]; intros drawn v v' H; cbn [wmapM] in H.
    - injection H as <- _. constructor.
    - apply wbind_Ok in H as (th & v1 & H1 & H). apply wbind_Ok in H as (dr & v2 & H2 & H). injection H as <- _. constructor; [|eauto].
      unfold get_thread in H1. destruct (nth_error ths i) eqn:Hi; [|discriminate]. injection H1 as <- _.
      rewrite Forall_forall in Hf. apply Hf. eapply nth_error_In; eauto. }
  assert (Hths : forall (v : world E) ths v', match threads with Some l => wret l | None => get_run_threads r end v = (Ok ths, v') ->
             Forall (has_params k) ths).
  { intros v ths v' H. destruct threads as [l|]; [injection H as <- _; auto|eapply threads_params; eauto]. }
  assert (Heq : bootstrap_resample_run_2d r threads ns b w = bootstrap_resample_run r threads ns b w).
  { unfold bootstrap_resample_run_2d, bootstrap_resample_run.
    apply bind_ext; intros st w1 _. apply bind_ext; intros u w2 _. apply bind_ext; intros ths w3 H1.
    apply bind_ext; intros inds w4 _. apply bind_ext; intros drawn w5 H2. unfold wbind at 1 3.
    rewrite C109_threads_same by (exists k; apply (Hdrawn _ _ _ _ _ (Hths _ _ _ H1) H2)). reflexivity. }
  split; auto. intros rr w' H. unfold bootstrap_resample_run in H.
  apply wbind_Ok in H as (st & w1 & _ & H). apply wbind_Ok in H as (u & w2 & _ & H). apply wbind_Ok in H as (ths & w3 & H1 & H).
  apply wbind_Ok in H as (inds & w4 & _ & H). apply wbind_Ok in H as (drawn & w5 & H2 & H). apply wbind_Ok in H as (res & w6 & H3 & H).
  cbv zeta in H. apply wbind_Ok in H as (u1 & w7 & _ & H). injection H as <- _.
  pose proof (Hdrawn _ _ _ _ _ (Hths _ _ _ H1) H2) as Hd. rewrite <- C109_threads_same in H3 by (exists k; auto).
  destruct (C109_threads_success _ _ _ _ _ _ H3) as (_ & k' & K1 & K2). intros t Ht. cbn [with_settings theta] in Ht.
  destruct drawn as [|d0 drawn]; [discriminate|].
  rewrite (K2 t Ht). unfold combine_threads_2d in H3. cbv zeta in H3. apply wbind_Ok in H3 as (? & ? & _ & H3).
  apply wbind_Ok in H3 as (arrs & ? & Ha & _). apply lift_Ok in Ha. cbn [mapM] in Ha.
  destruct (array_given_run d0) as [rows|] eqn:Hd0; [|discriminate]. apply array_theta in Hd0 as (E1 & E2).
  destruct rows as [|y rows]; [congruence|].
  assert (Hi : In (r_theta y) (theta d0)) by (rewrite <- E1; left; auto).
  rewrite <- (Forall_inv K1 _ Hi). apply (Forall_inv Hd _ Hi).
Qed.
Print Assumptions C109_bootstrap.


(** Two runs with one parameter, and one with two.  A thread of each. *)
Definition run_2d : run :=
  mkRun [2; 4; 8] [[20; 1]; [40; 1]; [80; 1]] [2; 2; 1] (Some [1; 0; 1]) (Some [(NInf, 4); (NInf, 8)]) None None.
Definition thread_1d : run := mkRun [1; 6] [[10]; [60]] [1; 1] (Some [0; 0]) (Some [(NInf, 6)]) None None.
Definition thread_2d : run := mkRun [3; 4] [[20; 1]; [40; 1]] [1; 1] (Some [0; 0]) (Some [(NInf, 4)]) None None.
Example C109_example : forall w : world (script_env []),
    one_width [run_two; run_other] /\
    (forall k, ~ Forall (has_params k) [run_two; run_2d]) /\ has_params 2 run_2d /\ complete_run run_2d [1; 0; 1] [(NInf, 4); (NInf, 8)] /\
    (exists r, combine_ns_runs [run_two; run_2d] false true w = (Ok r, w)) /\
    combine_ns_runs_2d [run_two; run_2d] false true w = (Raise ValueError, w) /\
    combine_threads_2d [thread_1d; thread_2d] false w = (Raise ValueError, w).
Proof.
  intros w. split.
  { exists 1%nat. repeat constructor; intros t Ht; cbn in Ht; repeat (destruct Ht as [<-|Ht]; auto); destruct Ht. }
  split.
  { intros k H. pose proof (Forall_inv H [10] (or_introl eq_refl)) as H1. pose proof (Forall_inv (Forall_inv_tail H) [20; 1] (or_introl eq_refl)) as H2.
    cbn in H1, H2. congruence. }
  split; [intros t Ht; cbn in Ht; repeat (destruct Ht as [<-|Ht]; auto); destruct Ht|].
  split; [apply run_other_complete|].
  split; [destruct w; eexists; vm_compute; reflexivity|].
  split; destruct w; vm_compute; reflexivity.
Qed.
Example C109_example_threads : forall th, In th [thread_1d; thread_2d] ->
    length (get_tmm th) = 1%nat /\ exists rows, array_given_run th = Ok rows.
Proof. intros th [<-|[<-|[]]]; (split; [reflexivity|eexists; vm_compute; reflexivity]). Qed.
