(** Threads which start exactly on the lowest logl (C19). *)
From Verif Require Import Base ModelRun ModelData ProofBase ProofMonad Spec SpecRun
     ProofThreads ProofBirth ProofRun ProofProcess ProofDict ProofComb ProofRuns ProofJoin.

Lemma above_some_min : forall tmm ls, ls <> [] -> above_some tmm ls -> starts_above tmm (min_list ls).
Proof.
  intros tmm ls Hne H m e Hin. destruct (H m e Hin) as (x & X1 & X2).
  destruct (min_list_spec ls Hne) as [_ Hm]. specialize (Hm x X1). lia.
Qed.

Lemma starts_on_count : forall tmm x, countb (fun mm => ext_eqb (fst mm) x) tmm = starts_on tmm x.
Proof.
  intros. unfold starts_on. rewrite <- countb_filter. apply countb_ext. intros [[|z] e] _; auto.
Qed.

Lemma n_start_low : forall rows tmm,
    (forall m e, In (Fin m, e) tmm -> min_list (map r_logl rows) <= m) ->
    n_start rows tmm = Z.of_nat (countb (fun mm => is_ninf (fst mm)) tmm) +
                       Z.of_nat (starts_on tmm (min_list (map r_logl rows))).
Proof.
  intros rows tmm. unfold n_start. generalize (min_list (map r_logl rows)). intros x.
  rewrite <- starts_on_count.
  induction tmm as [|[[|z] e] t IH]; intros H; auto; cbn [countb is_ninf fst ext_leb ext_eqb].
  - rewrite !Nat2Z.inj_succ, IH; [lia|]. intros. eapply H; right; eauto.
  - assert (x <= z) by (eapply H; left; eauto).
    destruct (z <=? x) eqn:H1, (z =? x) eqn:H2;
      rewrite ?Z.leb_le, ?Z.leb_gt, ?Z.eqb_eq, ?Z.eqb_neq in *; try lia;
      rewrite ?Nat2Z.inj_succ, IH; try lia; intros; eapply H; right; eauto.
Qed.

Lemma dict_dup : forall E rows tmm (w : world E), rows <> [] ->
    (2 <= countb (fun mm => ext_eqb (fst mm) (min_list (map r_logl rows))) tmm)%nat ->
    dict_given_run_array rows tmm w =
    (let nl := nl_of (n_start rows tmm) (map r_dn rows) in
     let n_min := countb (Z.eqb (min_list (map r_logl rows))) (map r_logl rows) in
     let nl' := repeat (n_start rows tmm) n_min ++ skipn n_min (map (Z.add (1 - last nl 0)) nl) in
     (if (0 <? n_start rows tmm) && (0 <? min_list nl') && (last nl' 0 =? 1)
      then Ok (mkRun (map r_logl rows) (map r_theta rows) nl'
                     (Some (map r_lab rows)) (Some tmm) None None)
      else Raise AssertionError,
      if 0 <? n_start rows tmm then mkW (w_rng w) (WDupStarts :: w_warn w) else w)).
Proof.
  intros E rows tmm w Hne Hdup. unfold dict_given_run_array.
  destruct rows as [|x t] eqn:Hr; [congruence|]. rewrite <- Hr in *. clear x t Hr.
  fold (n_start rows tmm).
  rewrite nl_form by (intros H; apply map_eq_nil in H; auto).
  replace (1 <? countb (fun mm => ext_eqb (fst mm) (min_list (map r_logl rows))) tmm)%nat with true
    by (symmetry; apply Nat.ltb_lt; lia).
  cbv zeta. set (nl' := repeat _ _ ++ _). clearbody nl'.
  unfold wbind, wassert, wlift, assertb, wret, warn.
  destruct (0 <? n_start rows tmm); cbn [andb]; auto.
  destruct (0 <? min_list nl'); cbn [andb]; auto.
  destruct (last nl' 0 =? 1); auto.
Qed.

Section Low.
Variable rows : list row.
Variable tmm : list (ext * Z).
Hypothesis Hne : rows <> [].
Hypothesis Hs : StronglySorted Z.le (map r_logl rows).
Hypothesis Hnd : NoDup (map r_logl rows).
Hypothesis Ht : tspec rows tmm.
Hypothesis Hb : balanced rows tmm.
Hypothesis Hst : forall m e, In (Fin m, e) tmm -> In m (map r_logl rows).
Let x0 := min_list (map r_logl rows).
Let c := starts_on tmm x0.
Let live := map (fun x => Z.of_nat (live_at tmm x)) (map r_logl rows).

Lemma low_ne : map r_logl rows <> [].
Proof. intros H. apply map_eq_nil in H. auto. Qed.

Lemma low_start : n_start rows tmm = Z.of_nat (countb (fun mm => is_ninf (fst mm)) tmm) + Z.of_nat c.
Proof.
  apply n_start_low. intros m e Hin. apply (proj2 (min_list_spec _ low_ne)). eauto.
Qed.

Lemma low_nl : nl_of (n_start rows tmm) (map r_dn rows) = map (fun z => z + Z.of_nat c) live.
Proof.
  apply nth_ext' with (d := 0).
  - rewrite nl_of_length. unfold live. rewrite !map_length. auto.
  - rewrite nl_of_length, map_length. intros i Hi.
    rewrite (nl_nth _ rows i); auto using sorted_rows.
    2: { intros. apply sorted_NoDup_lt; auto. }
    rewrite Hb, bal_live by (intros; eapply tspec_span; eauto). rewrite low_start.
    unfold live. rewrite (map_nth_in _ _ _ 0 0) by (rewrite !map_length; auto).
    rewrite (map_nth_in _ _ _ 0 0) by (rewrite map_length; auto). rewrite nth_logl by auto. lia.
Qed.

Lemma live_last : last live 0 = 1.
Proof.
  assert (Hlen : (0 < length rows)%nat) by (destruct rows; [congruence|simpl; lia]).
  unfold live. rewrite last_nth, !map_length.
  rewrite (map_nth_in _ _ _ 0 0) by (rewrite map_length; lia). rewrite nth_logl by lia.
  rewrite (live_max rows); auto.
  - apply nth_In. lia.
  - intros y Hy. destruct (in_nth_row _ _ Hy) as (j & J1 & <-). apply rows_le; auto. lia.
Qed.

Lemma live_ge : forall z, In z live -> 1 <= z.
Proof.
  intros z Hz. unfold live in Hz. rewrite map_map in Hz. apply in_map_iff in Hz as [x [<- Hx]].
  pose proof (live_pos rows tmm x Ht Hx). lia.
Qed.

Lemma live_len : length live = length rows.
Proof. unfold live. rewrite !map_length. auto. Qed.

Theorem dict_low_one : forall E (w : world E), c = 1%nat ->
    dict_given_run_array rows tmm w = (Raise AssertionError, w).
Proof.
  intros E w Hc. assert (Hd : countb (fun mm => ext_eqb (fst mm) (min_list (map r_logl rows))) tmm = 1%nat).
  { rewrite starts_on_count. exact Hc. }
  rewrite dict_run by (auto; lia). rewrite low_nl, Hc.
  assert (Hl : last (map (fun z => z + Z.of_nat 1) live) 0 = 2).
  { rewrite last_nth, map_length. pose proof live_last as HL. rewrite last_nth in HL.
    assert (0 < length live)%nat by (rewrite live_len; destruct rows; [congruence|simpl; lia]).
    rewrite (map_nth_in _ _ _ 0 0) by lia. rewrite HL. auto. }
  rewrite Hl. rewrite andb_false_r. auto.
Qed.

Lemma low_second : (1 <= c)%nat -> (2 <= length rows)%nat.
Proof.
  intros Hc. unfold c, starts_on in Hc.
  destruct (filter _ tmm) as [|mm t] eqn:Hf; [simpl in Hc; lia|].
  assert (Hin : In mm (filter (fun mm => match fst mm with Fin z => z =? x0 | NInf => false end) tmm))
    by (rewrite Hf; left; auto).
  apply filter_In in Hin as [Hin Hz]. destruct mm as [[|z] e]; [discriminate|]. simpl in Hz.
  apply Z.eqb_eq in Hz. subst z. pose proof (tspec_span _ _ _ Ht Hin) as Hsp. simpl in Hsp.
  apply Z.ltb_lt in Hsp.
  destruct (In_nth _ _ (NInf, 0) Hin) as (k & K1 & K2).
  destruct Ht as [_ H2]. destruct (H2 k K1) as (y & Y1 & Y2 & Y3). rewrite K2 in Y3. simpl in Y3.
  destruct rows as [|a [|b u]]; [congruence| |simpl; lia]. exfalso.
  destruct Y1 as [->|[]]. unfold x0 in Hsp. simpl in Hsp. lia.
Qed.


Lemma low_min_count : countb (Z.eqb x0) (map r_logl rows) = 1%nat.
Proof.
  rewrite countb_filter. apply (count_one _ 0 _ _ 0%nat).
  - pose proof low_ne. destruct (map r_logl rows); [congruence|simpl; lia].
  - apply Z.eqb_eq. unfold x0. rewrite min_first by auto. rewrite nth_logl; auto. destruct rows; [congruence|simpl; lia].
  - intros j Hj He. apply Z.eqb_eq in He. unfold x0 in He.
    apply (proj1 (NoDup_nth (map r_logl rows) 0) Hnd); auto; [lia|].
    rewrite <- He. rewrite min_first by auto. rewrite nth_logl; auto. destruct rows; [congruence|simpl; lia].
Qed.

Lemma low_first : hd 0 live = Z.of_nat (countb (fun mm => is_ninf (fst mm)) tmm).
Proof.
  pose proof low_nl as H. apply (f_equal (fun l => nth 0 l 0)) in H.
  assert (Hp : (0 < length rows)%nat) by (destruct rows; [congruence|simpl; lia]).
  unfold nl_of in H. rewrite nth_map_seq in H by (rewrite map_length; auto).
  rewrite (map_nth_in _ _ _ 0 0) in H by (rewrite live_len; auto).
  change (zsum (firstn 0 (map r_dn rows))) with 0 in H. rewrite low_start in H.
  replace (hd 0 live) with (nth 0 live 0) by (destruct live; auto). lia.
Qed.

Theorem dict_low_many : forall E (w : world E), (2 <= c)%nat ->
    dict_given_run_array rows tmm w =
    (Ok (mkRun (map r_logl rows) (map r_theta rows) (hd 0 live + Z.of_nat c :: tl live)
               (Some (map r_lab rows)) (Some tmm) None None),
     mkW (w_rng w) (WDupStarts :: w_warn w)).
Proof.
  intros E w Hc. pose proof (low_second ltac:(lia)) as Hlen.
  rewrite dict_dup; auto.
  2: { rewrite starts_on_count. exact Hc. }
  cbv zeta. fold x0. rewrite low_min_count, low_nl, low_start, <- low_first.
  assert (Hll : last (map (fun z => z + Z.of_nat c) live) 0 = 1 + Z.of_nat c).
  { rewrite last_nth, map_length. pose proof live_last as HL. rewrite last_nth in HL.
    rewrite (map_nth_in _ _ _ 0 0) by (rewrite live_len; lia). rewrite HL. auto. }
  rewrite Hll. rewrite map_map.
  assert (Hmap : map (fun x => 1 - (1 + Z.of_nat c) + (x + Z.of_nat c)) live = live).
  { rewrite <- (map_id live) at 2. apply map_ext. intros; lia. }
  rewrite Hmap. pose proof live_ge as Hge. pose proof live_last as HL. pose proof live_len as Hlv.
  destruct live as [|a [|b t]]; [simpl in Hlv; lia|simpl in Hlv; lia|].
  cbn [hd tl repeat skipn app].
  pose proof (Hge a (or_introl eq_refl)).
  replace (0 <? a + Z.of_nat c) with true by (symmetry; apply Z.ltb_lt; lia).
  replace (0 <? min_list (a + Z.of_nat c :: b :: t)) with true.
  2: { symmetry. apply Z.ltb_lt. destruct (min_list_spec (a + Z.of_nat c :: b :: t)) as [Hin _]; [discriminate|].
       destruct Hin as [<-|Hin]; [lia|]. specialize (Hge _ (or_intror Hin)). lia. }
  replace (last (a + Z.of_nat c :: b :: t) 0) with (last (a :: b :: t) 0) by auto. rewrite HL. auto.
Qed.
End Low.

Theorem split_join_low : forall E r labs tmm abp (w : world E), complete_run r labs tmm ->
    let c := starts_on tmm (min_list (logl r)) in
    (c = 1%nat -> (let* ths := get_run_threads r in combine_threads ths abp) w =
                  (Raise AssertionError, w)) /\
    ((2 <= c)%nat -> (let* ths := get_run_threads r in combine_threads ths abp) w =
                  (Ok (mkRun (logl r) (theta r) (hd 0 (nlive_array r) + Z.of_nat c :: tl (nlive_array r))
                             (Some labs) (Some tmm) None None),
                   mkW (w_rng w) (WDupStarts :: w_warn w))).
Proof.
  intros E r labs tmm abp w Hc. cbv zeta.
  destruct (split_rows E r labs tmm abp w Hc) as (rows & -> & Hne & K1 & K2 & K3 & Hs & Hnd & Ht & Hb).
  destruct (complete_parts r labs tmm Hc) as (P1 & P2 & P3 & P4 & P5 & P6 & P7 & P8 & P9 & P10).
  destruct Hc as (Hcon & _ & S1 & S2 & S3). rewrite <- K1 in S2 |- *.
  assert (Hlive : map (fun x => Z.of_nat (live_at tmm x)) (map r_logl rows) = nlive_array r).
  { rewrite K1. apply nth_ext' with (d := 0).
    + rewrite map_length. auto.
    + rewrite map_length. intros i Hi. rewrite (map_nth_in _ _ _ 0 0) by auto. symmetry. auto. }
  split; intros Hcc.
  - unfold wbind. rewrite dict_low_one; auto.
  - rewrite (wbind_run _ _ _ _ _ _ _ _ (dict_low_many rows tmm Hne Hs Hnd Ht Hb S2 E w Hcc)).
    unfold wlift. rewrite drop_good; auto.
    rewrite Hlive, K2, K3. auto.
Qed.
