(** C102: process_samples_array on samples with nan and infinities. *)
From Verif Require Import Base ModelRun ModelData ModelNan ModelNanData Envs ProofBase ProofMonad
     PropNan ProofMono ProofNanData Spec SpecRun PropProcess.

(** ** What is claimed *)

(** A nan among the log-likelihoods or birth contours, wherever it stands in the
    array, makes the function raise AssertionError. *)
Lemma forallb_nan : forall births logls, length births = length logls ->
    In Nan births -> forallb (fun '(x, y) => num_leb x y) (combine births logls) = false.
Proof.
  induction births as [|x t IH]; intros [|y m] Hl H; simpl in Hl; try discriminate;
    [contradiction|]. simpl. destruct H as [->|H]; [reflexivity|]. rewrite IH by (auto; lia). apply andb_false_r.
Qed.
Lemma nth_seq_id : forall (l : list nsamp) k,
    map (fun i => nth (i - k) l nsamp0) (seq k (length l)) = l.
Proof.
  induction l as [|x l IH]; intros k; simpl; auto. rewrite Nat.sub_diag. f_equal.
  rewrite <- (IH (S k)) at 2. apply map_ext_in. intros i Hi. apply in_seq in Hi.
  replace (i - k)%nat with (S (i - S k)) by lia. reflexivity.
Qed.
Lemma sort_perm : forall S l, Permutation (nsort_samps S l) l.
Proof.
  intros S l. unfold nsort_samps, take.
  transitivity (map (fun i => nth i l nsamp0) (seq 0 (length l))).
  - apply Permutation_map. pose proof (nsort_perm S (map ns_logl l)) as H. rewrite map_length in H. auto.
  - apply Permutation_refl'. rewrite <- (nth_seq_id l 0) at 2. apply map_ext.
    intros i. rewrite Nat.sub_0_r. auto.
Qed.
Lemma logls_nan : forall E S lg da dw (w : world E), In Nan lg ->
    ncheck_logls S lg da dw w = (Raise AssertionError, w).
Proof.
  intros E S lg da dw w H. pose proof (nlogls E S lg da dw w) as Ho.
  destruct (ncheck_logls S lg da dw w) as [[u|e] w1]; [tauto|]. destruct Ho as (-> & -> & _). auto.
Qed.

Theorem C102_nan : forall E S samples da dw (w : world E),
    (In Nan (map ns_logl samples) -> nprocess S samples da dw w = (Raise AssertionError, w)) /\
    (In Nan (map ns_birth samples) -> exists w', nprocess S samples da dw w = (Raise AssertionError, w')).
Proof.
  intros E S samples da dw w. unfold nprocess.
  assert (HP := sort_perm S samples). set (l := nsort_samps S samples) in *. split; intros H.
  - assert (Hl : In Nan (map ns_logl l)).
    { eapply Permutation_in; [apply Permutation_map, Permutation_sym; exact HP|exact H]. }
    unfold wbind at 1, nbirth_inds, wbind at 1. rewrite (logls_nan _ _ _ _ _ _ Hl). reflexivity.
  - assert (Hl : In Nan (map ns_birth l)).
    { eapply Permutation_in; [apply Permutation_map, Permutation_sym; exact HP|exact H]. }
    unfold wbind at 1, nbirth_inds, wbind at 1.
    pose proof (nlogls E S (map ns_logl l) da dw w) as Ho.
    destruct (ncheck_logls S (map ns_logl l) da dw w) as [[u|e] w1].
    + unfold wbind, get_state, seed, nbirth_loop.
      destruct (map ns_birth l) as [|b0 bt] eqn:Hb; [contradiction|].
      rewrite forallb_nan; [eexists; reflexivity| |auto].
      rewrite <- Hb, !map_length. reflexivity.
    + destruct Ho as (-> & -> & _). eexists. reflexivity.
Qed.
Print Assumptions C102_nan.

(** Without nan: the function does what it does with finite numbers in the same
    order ([ModelData], with all that is proved of it): the same draws,
    warnings, exceptions, labels and live points.  Infinities, of either sign,
    count as numbers. *)
Theorem C102_infinite : forall E S g h samples da dw (w : world E), same_sort S E ->
    keeps_order g (map ns_logl samples ++ map ns_birth samples) ->
    process_samples_array (map (samp_of g h) samples) da dw w =
    match nprocess S samples da dw w with
    | (Ok p, w') => (Ok (run_of g h p), w')
    | (Raise e, w') => (Raise e, w')
    end.
Proof.
  intros E S g h samples da dw w HS Hg.
  rewrite (k_process g _ Hg h E S HS); auto using incl_appl, incl_appr, incl_refl.
  destruct (nprocess S samples da dw w) as [[p|e] w']; reflexivity.
Qed.
Print Assumptions C102_infinite.

(** For numbers without nan there is such a map to the integers. *)
Theorem C102_covers : forall samples,
    ~ In Nan (map ns_logl samples) -> ~ In Nan (map ns_birth samples) ->
    exists g, keeps_order g (map ns_logl samples ++ map ns_birth samples).
Proof. intros samples H1 H2. apply order_exists. rewrite in_app_iff. tauto. Qed.
Print Assumptions C102_covers.

(** So a run which is returned has no nan in logl and thread_min_max, and they
    are sorted. *)
Theorem C102_returned : forall E S samples da dw (w : world E) p w',
    nprocess S samples da dw w = (Ok p, w') ->
    ~ In Nan (map ns_logl samples) /\ ~ In Nan (map ns_birth samples) /\
    Permutation (combine (p_theta p) (p_logl p)) (map (fun s => (ns_theta s, ns_logl s)) samples) /\
    StronglySorted ext_le (p_logl p).
Proof.
  intros E S samples da dw w p w' H.
  pose proof (C102_nan E S samples da dw w) as [N1 N2]. split; [|split].
  - intros Hn. rewrite (N1 Hn) in H. discriminate.
  - intros Hn. destruct (N2 Hn) as (w2 & Hw). rewrite Hw in H. discriminate.
  - unfold nprocess in H. assert (HP := sort_perm S samples).
    set (l := nsort_samps S samples) in *.
    apply wbind_Ok in H as (bi & w1 & Hb & H). apply wbind_Ok in H as (labs & w2 & _ & H).
    apply wbind_Ok in H as (u & w3 & _ & H). apply wbind_Ok in H as ([tmm delta] & w4 & _ & H).
    injection H as <- <-. cbn [p_theta p_logl]. split.
    + rewrite <- HP. clear. induction l as [|x t IH]; simpl; auto.
    + unfold nbirth_inds in Hb. apply wbind_Ok in Hb as (v & w5 & Hc & _).
      unfold ncheck_logls in Hc. apply wbind_Ok in Hc as (v2 & w6 & Hc & _).
      destruct (nums_eqb _ _) eqn:He in Hc; [|discriminate]. apply sorted_test in He. tauto.
Qed.
Print Assumptions C102_returned.

(** An array whose points die above their birth contours, which are -inf or the
    log-likelihood of some point, is processed, and nlive_array[i] counts the
    points born below the i-th log-likelihood and dying at or above it, for
    distinct log-likelihoods of which one may be inf. *)
Theorem C102_live : forall E S samples da dw (w : world E), same_sort S E ->
    samples <> [] -> NoDup (map ns_logl samples) ->
    (forall s, In s samples -> ext_le (ns_birth s) (ns_logl s) /\ ns_birth s <> ns_logl s /\
       (ns_birth s = NegInf \/ In (ns_birth s) (map ns_logl samples))) ->
    exists p w', nprocess S samples da dw w = (Ok p, w') /\ w_rng w' = w_rng w /\
      length (p_nlive p) = length samples /\ length (p_logl p) = length samples /\
      forall i, (i < length samples)%nat ->
        nth i (p_nlive p) 0 = Z.of_nat (length (filter (fun x =>
           andb (negb (num_leb (nth i (p_logl p) Nan) (ns_birth x)))
                (num_leb (nth i (p_logl p) Nan) (ns_logl x))) samples)).
Proof.
  intros E S samples da dw w HS Hne Hnd Hwf.
  assert (Hnl : forall a b, ext_le a b -> a <> Nan /\ b <> Nan)
    by (intros a b Hab; inversion Hab; subst; split; congruence).
  assert (Hn : ~ In Nan (NegInf :: map ns_logl samples ++ map ns_birth samples)).
  { simpl. rewrite in_app_iff, !in_map_iff. intros [Hx|[(s & Hs & Hin)|(s & Hs & Hin)]];
      [discriminate| |]; destruct (Hwf s Hin) as (H1 & _); apply Hnl in H1; tauto. }
  destruct (order_exists _ Hn) as (g & Hg).
  assert (Hg2 : keeps_order g (map ns_logl samples ++ map ns_birth samples))
    by (eapply keeps_incl; [exact Hg|intros x Hx; simpl; auto]).
  assert (Hil : forall s, In s samples -> In (ns_logl s) (NegInf :: map ns_logl samples ++ map ns_birth samples))
    by (intros s Hs; right; apply in_app_iff; left; apply in_map; auto).
  assert (Hib : forall s, In s samples -> In (ns_birth s) (NegInf :: map ns_logl samples ++ map ns_birth samples))
    by (intros s Hs; right; apply in_app_iff; right; apply in_map; auto).
  assert (HiN : In NegInf (NegInf :: map ns_logl samples ++ map ns_birth samples)) by (simpl; auto).
  set (h := fun _ : list num => @nil Z).
  pose proof (C102_infinite E S g h samples da dw w HS Hg2) as Hp.
  assert (Hwf2 : well_formed (g NegInf) (births_deaths (map (samp_of g h) samples))).
  { split; [destruct samples; [congruence|discriminate]|]. unfold births_deaths. rewrite map_map.
    intros b l Hin. apply in_map_iff in Hin as (s & Hs & Hin). simpl in Hs. injection Hs as <- <-.
    destruct (Hwf s Hin) as (H1 & H2 & H3).
    assert (Hlt : g (ns_birth s) < g (ns_logl s)).
    { assert (g (ns_birth s) <= g (ns_logl s)) by (apply Hg; auto).
      assert (g (ns_birth s) <> g (ns_logl s)) by (intros He; apply (k_inj g _ Hg) in He; auto). lia. }
    assert (Hle : g NegInf <= g (ns_birth s)) by (apply Hg; auto; constructor; apply Hnl in H1; tauto).
    split; [auto|]. split; [lia|]. destruct H3 as [->|H3]; [left; auto|right].
    apply in_map_iff in H3 as (s2 & <- & Hs2). exists (g (ns_birth s2)).
    apply in_map_iff. exists s2. auto. }
  assert (Hnd2 : NoDup (map s_logl (map (samp_of g h) samples))).
  { rewrite map_map. simpl. rewrite <- map_map. apply (k_NoDup g _ Hg2); auto.
    intros x Hx. apply in_app_iff. auto. }
  destruct (C04_processing E _ _ da dw w Hwf2 (fun _ => Hnd2)) as (r & w' & Hr & Hrng & _).
  destruct (C03_nlive_distinct E _ _ da dw w r w' Hwf2 Hnd2 Hr) as (L1 & L2 & L3).
  rewrite Hr in Hp. destruct (nprocess S samples da dw w) as [[p|e] w2] eqn:Hnp; [|discriminate].
  injection Hp as -> <-. exists p, w'. rewrite map_length in *. simpl in L1, L2, L3.
  rewrite map_length in L2. split; [auto|]. split; [auto|]. split; [auto|]. split; [auto|].
  intros i Hi. rewrite (L3 i Hi). f_equal. rewrite (map_nth_in _ _ g 0 Nan) by lia.
  destruct (C102_returned E S samples da dw w p w' Hnp) as (_ & _ & Hperm & _).
  assert (Hin : In (nth i (p_logl p) Nan) (NegInf :: map ns_logl samples ++ map ns_birth samples)).
  { right. apply in_app_iff. left.
    assert (Hlt : length (p_theta p) = length (p_logl p)).
    { unfold nprocess in Hnp. apply wbind_Ok in Hnp as (? & ? & _ & Hnp).
      apply wbind_Ok in Hnp as (? & ? & _ & Hnp). apply wbind_Ok in Hnp as (? & ? & _ & Hnp).
      apply wbind_Ok in Hnp as ([? ?] & ? & _ & Hnp). injection Hnp as <- _. simpl.
      rewrite !map_length. auto. }
    assert (Hc : In (nth i (p_theta p) [], nth i (p_logl p) Nan) (combine (p_theta p) (p_logl p))).
    { rewrite <- combine_nth by auto. apply nth_In. rewrite combine_length. lia. }
    apply (Permutation_in _ Hperm), in_map_iff in Hc as (s & Hs & Hc).
    injection Hs as _ <-. apply in_map. auto. }
  clear - Hin Hil Hib Hg. revert Hin Hil Hib Hg.
  generalize (NegInf :: map ns_logl samples ++ map ns_birth samples) as vals.
  generalize (nth i (p_logl p) Nan) as v. intros v vals Hin Hil Hib Hg.
  induction samples as [|s t IH]; simpl; auto.
  rewrite (k_leb g vals Hg v (ns_birth s)) by (auto; apply Hib; simpl; auto).
  rewrite (k_leb g vals Hg v (ns_logl s)) by (auto; apply Hil; simpl; auto).
  rewrite <- Z.ltb_antisym. specialize (IH ltac:(intros; apply Hil; simpl; auto) ltac:(intros; apply Hib; simpl; auto)).
  destruct ((g (ns_birth s) <? g v) && (g v <=? g (ns_logl s))); simpl; congruence.
Qed.
Print Assumptions C102_live.

(** ** Examples *)

(** The sorting of the examples. *)
Lemma example_sort : forall script, same_sort np_sort (script_env script).
Proof.
  intros script g l Hg. cbn [np_sort nsort script_env argsort]. unfold nisort, isort. rewrite map_length.
  assert (Hins : forall i js, (i < length l)%nat -> Forall (fun j => (j < length l)%nat) js ->
            nins l i js = ins (map g l) i js).
  { induction js as [|j t IH]; intros Hi Hj; simpl; auto. inversion Hj as [|? ? J1 J2]; subst.
    rewrite !(map_nth_in _ _ g 0 Nan) by auto.
    assert (Hni : nth i l Nan <> Nan) by (apply (k_nan g l Hg), nth_In; auto).
    assert (Hnj : nth j l Nan <> Nan) by (apply (k_nan g l Hg), nth_In; auto).
    rewrite sort_leb_fin by auto. rewrite (k_leb g l Hg) by (apply nth_In; auto).
    rewrite IH by auto. reflexivity. }
  assert (Hall : forall idx, Forall (fun j => (j < length l)%nat) idx ->
            fold_right (nins l) [] idx = fold_right (ins (map g l)) [] idx /\
            Forall (fun j => (j < length l)%nat) (fold_right (nins l) [] idx)).
  { induction idx as [|i t IH]; simpl; intros H; [auto|]. inversion H; subst.
    destruct IH as [I1 I2]; auto. split.
    - rewrite <- I1. apply Hins; auto.
    - rewrite Forall_forall in *. intros x Hx. apply (Permutation_in _ (nins_perm _ _ _)) in Hx.
      destruct Hx as [<-|Hx]; auto. }
  apply Hall. rewrite Forall_forall. intros j Hj. apply in_seq in Hj. lia.
Qed.

Definition w1 : world (script_env []) := @mkW (script_env []) [] [].
(** A likelihood which is zero in places, run with two live points: the third
    point replaced a point of likelihood zero, so that it has birth contour -inf,
    like the initial ones. *)
Definition zero_likelihood : list nsamp :=
  [mkNSamp [Num 1] NegInf NegInf; mkNSamp [Num 2] (Num 4) NegInf;
   mkNSamp [Num 3] (Num 6) NegInf; mkNSamp [Num 4] PosInf (Num 4)].
Example C102_infinite_hypotheses : exists g,
    keeps_order g (map ns_logl zero_likelihood ++ map ns_birth zero_likelihood).
Proof. apply C102_covers; simpl; intuition discriminate. Qed.

(** The number of live points before the first death is not the two with which
    the sampler ran: every point born on -inf counts as drawn from the prior. *)
Theorem C102_zero_likelihood_refuted :
  exists p, nprocess np_sort zero_likelihood false true w1 = (Ok p, w1) /\
    p_nlive p = [3; 2; 2; 1] /\
    p_tmm p = [(NegInf, NegInf); (NegInf, PosInf); (NegInf, Num 6)].
Proof. eexists. split; [vm_compute; reflexivity|]. split; reflexivity. Qed.
Print Assumptions C102_zero_likelihood_refuted.

(** A nan comes last in the sorted array. *)
Example C102_nan_example :
  let bad := [mkNSamp [Num 1] Nan NegInf; mkNSamp [Num 1] (Num 2) NegInf] in
  let bad2 := [mkNSamp [Num 1] (Num 3) NegInf; mkNSamp [Num 1] (Num 5) Nan] in
  nprocess np_sort bad false true w1 = (Raise AssertionError, w1) /\
  fst (nprocess np_sort bad2 false true w1) = Raise AssertionError.
Proof. split; vm_compute; reflexivity. Qed.

(** Hypotheses of C102_live, with a point of log-likelihood inf. *)
Example C102_live_hypotheses :
  let l := [mkNSamp [] (Num 5) (Num 2); mkNSamp [] PosInf NegInf; mkNSamp [] (Num 2) NegInf] in
  l <> [] /\ NoDup (map ns_logl l) /\
  (forall s, In s l -> ext_le (ns_birth s) (ns_logl s) /\ ns_birth s <> ns_logl s /\
     (ns_birth s = NegInf \/ In (ns_birth s) (map ns_logl l))) /\
  match nprocess np_sort l true true w1 with
  | (Ok p, _) => p_logl p = [Num 2; Num 5; PosInf] /\ p_nlive p = [2; 2; 1]
  | _ => False
  end.
Proof.
  split; [discriminate|]. split; [repeat constructor; simpl; intuition discriminate|]. split.
  - simpl. intros s [<-|[<-|[<-|[]]]]; (split; [apply num_leb_spec; reflexivity|]);
      simpl; (split; [discriminate|auto]).
  - vm_compute. auto.
Qed.
