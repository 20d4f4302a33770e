(** C79, C80: what param_logx_diagram draws. *)
From Coq Require Import Lra.
From Verif Require Import Base ModelRun ModelBoot ModelReal ModelStats ModelPlots Envs Spec SpecRun SpecReal
                          ProofBase ProofMonad ProofDet ProofBoot ProofThreads ProofRun ProofReal ProofStats PropCombine PropBoot PropKde PropPlots PropPlots2.
From Verif Require PropCurves.
Local Open Scope R_scope.

(** The generator returns as many numbers as asked for, between 0 and 1. *)
Definition fair {E} (U : uniforms E) : Prop :=
  forall n s, length (fst (U n s)) = n /\ forall u, In u (fst (U n s)) -> 0 < u < 1.
(** logX of the sample at position [i]: drawn with the numbers [us], and
    expected. *)
Definition drawn_logx (r : run) (us : list R) (i : nat) : R :=
  sumR (map (fun j => ln (nth j us 0) / IZR (nth j (nlive_array r) 0%Z)) (seq 0 (S i))).
Definition expected_logx (r : run) (i : nat) : R :=
  - sumR (map (fun j => / IZR (nth j (nlive_array r) 0%Z)) (seq 0 (S i))).

(** ** Inversion *)
Lemma wmapM_inv : forall E A B (f : A -> W E B) (P : A -> B -> Prop) l (w : world E) bs w',
    (forall a v b v', In a l -> f a v = (Ok b, v') -> P a b) -> wmapM f l w = (Ok bs, w') -> Forall2 P l bs.
Proof.
  induction l as [|x t IH]; intros w bs w' Hf H; [injection H as <- _; constructor|].
  cbn [wmapM] in H. apply wbind_Ok in H as (y & w1 & H1 & H). apply wbind_Ok in H as (ys & w2 & H2 & H).
  injection H as <- _. constructor; [eapply Hf; [left; auto|eauto]|].
  eapply IH; [|exact H2]. intros; eapply Hf; [right; auto|eauto].
Qed.
Lemma mapM_inv : forall A B (f : A -> res B) l ys, mapM f l = Ok ys -> Forall2 (fun a b => f a = Ok b) l ys.
Proof.
  induction l as [|x t IH]; intros ys H; cbn [mapM] in H; [injection H as <-; constructor|].
  destruct (f x) as [y|] eqn:Hx; cbn [rbind] in H; [|discriminate].
  destruct (mapM f t) as [yt|] eqn:Ht; cbn [rbind] in H; [|discriminate]. injection H as <-. constructor; auto.
Qed.
Lemma Forall2_len : forall A B (P : A -> B -> Prop) l m, Forall2 P l m -> length l = length m.
Proof. induction 1; cbn [length]; auto. Qed.
Lemma Forall2_map_r : forall A B C (g : B -> C) (P : A -> C -> Prop) l m,
    Forall2 (fun a b => P a (g b)) l m -> Forall2 P l (map g m).
Proof. induction 1; cbn [map]; constructor; auto. Qed.
Lemma Forall2_mono : forall A B (P Q : A -> B -> Prop) l m,
    (forall a b, P a b -> Q a b) -> Forall2 P l m -> Forall2 Q l m.
Proof. induction 2; constructor; auto. Qed.

Lemma firstn_seq : forall A (d : A) l k, (k <= length l)%nat -> firstn k l = map (fun j => nth j l d) (seq 0 k).
Proof.
  induction l as [|x l IH]; intros [|k] H; cbn [length] in H; try lia; auto.
  cbn [firstn seq map]. f_equal. rewrite <- seq_shift, map_map. apply IH. lia.
Qed.
Lemma cumsum_at : forall l i, (i < length l)%nat -> nth i (cumsum l) 0 = sumR (map (fun j => nth j l 0) (seq 0 (S i))).
Proof. intros l i H. rewrite nth_cumsum, rsum_sumR, (firstn_seq _ 0) by lia. auto. Qed.

Lemma expected_is : forall r lx, get_logx (nlive_array r) None = Ok lx ->
    length lx = length (nlive_array r) /\ forall i, (i < length lx)%nat -> nth i lx 0 = expected_logx r i.
Proof.
  intros r lx H. apply get_logx_ok in H as (_ & _ & ->). unfold logx_steps.
  rewrite cumsum_length, map_length. split; auto. intros i Hi. unfold expected_logx.
  rewrite cumsum_at by (rewrite map_length; auto).
  assert (Hs : forall l, (forall j, In j l -> (j < length (nlive_array r))%nat) ->
     sumR (map (fun j => nth j (map (fun n => -1 * / IZR n) (nlive_array r)) 0) l) =
     - sumR (map (fun j => / IZR (nth j (nlive_array r) 0%Z)) l)).
  { induction l as [|j l IH]; intros Hl; cbn [map sumR]; [lra|].
    rewrite IH by (intros; apply Hl; right; auto).
    rewrite (map_nth_in _ _ _ _ 0%Z) by (apply Hl; left; auto). lra. }
  apply Hs. intros j Hj. apply in_seq in Hj. lia.
Qed.
Lemma drawn_is : forall r us lx, get_logx (nlive_array r) (Some us) = Ok lx -> length us = length (nlive_array r) ->
    length lx = length (nlive_array r) /\ forall i, (i < length lx)%nat -> nth i lx 0 = drawn_logx r us i.
Proof.
  intros r us lx H Hu. apply get_logx_ok in H as (_ & _ & ->). unfold logx_steps.
  assert (Hl : length (map2 (fun u n => ln u / IZR n) us (nlive_array r)) = length (nlive_array r)).
  { rewrite map2_length, Hu. apply Nat.min_id. }
  rewrite cumsum_length, Hl. split; auto. intros i Hi. unfold drawn_logx.
  rewrite cumsum_at by (rewrite Hl; auto). f_equal. apply map_ext_in. intros j Hj. apply in_seq in Hj.
  apply (nth_map2 _ _ _ (fun u n => ln u / IZR n) us (nlive_array r) j 0 0%Z 0); lia.
Qed.

(** ** The curves of the weights *)

(** A row of the array given to fgivenx: the logX of the samples from the last
    one to the first, increasing, each followed by a positive number
    proportional to exp(logX + logL) of that sample; the area below these
    numbers is 1. *)
Definition mass_curve {E} (U : uniforms E) (r : run) (row : list fl) : Prop :=
  let n := length (logl r) in
  exists s ws, let us := fst (U n s) in let xs := map (fun i => drawn_logx r us (n - 1 - i)) (seq 0 n) in
    length ws = n /\ length row = (2 * n)%nat /\
    (forall i, (i < n)%nat -> nth (2 * i) row None = Some (nth i xs 0) /\
                              nth (2 * i + 1) row None = Some (nth i ws 0) /\ 0 < nth i ws 0) /\
    StronglySorted Rlt xs /\
    (forall i j, (i < n)%nat -> (j < n)%nat ->
       nth i ws 0 * exp (drawn_logx r us (n - 1 - j) + fval (nth (n - 1 - j) (logl r) 0%Z)) =
       nth j ws 0 * exp (drawn_logx r us (n - 1 - i) + fval (nth (n - 1 - i) (logl r) 0%Z))) /\
    integral xs ws = 1.

Lemma interleave_nth : forall A (d : A) a b i, length a = length b -> (i < length a)%nat ->
    nth (2 * i) (interleave a b) d = nth i a d /\ nth (2 * i + 1) (interleave a b) d = nth i b d.
Proof.
  induction a as [|x a IH]; intros [|y b] i Hl Hi; cbn [length] in *; try lia.
  destruct i as [|i]; [split; reflexivity|].
  destruct (IH b i ltac:(lia) ltac:(lia)) as [H1 H2]. cbn [interleave].
  replace (2 * S i)%nat with (S (S (2 * i))) by lia. cbn [nth Nat.add]. split; auto.
Qed.

Lemma weight_row_curve : forall E (U : uniforms E) r v row v', fair U -> (2 <= length (logl r))%nat ->
    weight_row U r v = (Ok row, v') -> mass_curve U r row.
Proof.
  intros E U r v row v' HU H2 H. unfold weight_row in H.
  apply wbind_Ok in H as (lx0 & v1 & _ & H). apply wbind_Ok in H as (us & v2 & Hus & H).
  apply wbind_Ok in H as (lx & v3 & Hlx & H). unfold wlift in Hlx. injection Hlx as Hlx _.
  unfold random in Hus. destruct (HU (length (nlive_array r)) (w_rng v1)) as (Hlen & Hrange).
  assert (Hus' : us = fst (U (length (nlive_array r)) (w_rng v1))).
  { destruct (U _ (w_rng v1)). injection Hus as <- _. auto. }
  rewrite <- Hus' in Hlen, Hrange.
  destruct (drawn_is _ _ _ Hlx Hlen) as (Hl1 & Hd).
  destruct (logx_facts _ _ _ Hlx) as (_ & Hneg & Hdec); [split; auto|].
  cbv zeta in H. rewrite rev_length in H. destruct (Nat.eqb_spec (length lx) (length (logl r))) as [Hl|]; [|discriminate].
  cbn [negb] in H.
  set (n := length (logl r)) in *.
  set (x := rev lx) in *. set (ll := rev (map fval (logl r))) in *.
  assert (Hx : length x = n) by (unfold x; rewrite rev_length; auto).
  assert (Hll : length ll = n) by (unfold ll; rewrite rev_length, map_length; auto).
  set (w := rel (map2 Rplus x ll)) in *.
  assert (Hw : length w = n) by (unfold w; rewrite rel_length, map2_length, Hx, Hll; apply Nat.min_id).
  assert (Hxn : forall i, (i < n)%nat -> nth i x 0 = drawn_logx r us (n - 1 - i)).
  { intros i Hi. unfold x. rewrite rev_nth by lia. rewrite Hl, Hd by lia. f_equal. lia. }
  assert (Hxs : x = map (fun i => drawn_logx r us (n - 1 - i)) (seq 0 n)).
  { apply nth_ext with 0 0; [rewrite map_length, seq_length; auto|]. intros i Hi. rewrite Hx in Hi.
    rewrite (map_nth_in _ _ _ _ 0%nat) by (rewrite seq_length; auto). rewrite seq_nth by auto. apply Hxn; auto. }
  assert (Hinc : forall i j, (i < j < n)%nat -> nth i x 0 < nth j x 0).
  { intros i j Hij. unfold x. rewrite !rev_nth by lia. apply Hdec. lia. }
  assert (Hpos : 0 < trapz w x).
  { apply trapz_pos; [lia| | |].
    - intros i Hi. apply Rlt_le, Hinc. lia.
    - apply Hinc. lia.
    - apply rel_pos. }
  set (c := trapz w x) in *.
  assert (Hm : map (fun z => fdiv (Some z) (Some c)) w = map Some (map (fun z => z / c) w)).
  { rewrite map_map. apply map_ext. intros z. unfold fdiv. destruct (Req_EM_T c 0); [lra|auto]. }
  rewrite Hm in H. injection H as <- _.
  unfold mass_curve. fold n. exists (w_rng v1), (map (fun z => z / c) w). cbv zeta.
  replace (fst (U n (w_rng v1))) with us by (rewrite Hus'; f_equal; f_equal; lia). rewrite <- Hxs.
  rewrite map_length. split; [auto|]. split; [rewrite interleave_length; rewrite ?map_length; lia|].
  split; [|split; [|split]].
  - intros i Hi. destruct (interleave_nth _ None (map Some x) (map Some (map (fun z => z / c) w)) i) as [E1 E2];
      [rewrite !map_length; lia|rewrite map_length; lia|].
    rewrite E1, E2, !(map_nth_in _ _ Some None 0) by (rewrite ?map_length; lia). split; auto. split; auto.
    rewrite (map_nth_in _ _ _ _ 0) by lia. apply Rdiv_lt_0_compat; auto. apply (rel_pos (map2 Rplus x ll)).
    apply nth_In. unfold w in Hw. lia.
  - clear - Hinc Hx. revert Hinc. rewrite <- Hx. clear Hx. generalize x. clear. induction x as [|a x IH]; intros H; constructor.
    + apply IH. intros i j Hij. apply (H (S i) (S j)). cbn [length]. lia.
    + apply Forall_forall. intros b Hb. apply In_nth with (d := 0) in Hb as (j & Hj & <-).
      apply (H 0%nat (S j)). cbn [length]. lia.
  - intros i j Hi Hj.
    assert (Hlln : forall k, (k < n)%nat -> nth k ll 0 = fval (nth (n - 1 - k) (logl r) 0%Z)).
    { intros k Hk. unfold ll. rewrite rev_nth by (rewrite map_length; fold n; lia). rewrite map_length. fold n.
      rewrite nth_fval. f_equal. f_equal. lia. }
    rewrite <- !Hlln, <- !Hxn by auto. unfold w. apply mass_ratio; lia.
  - rewrite <- trapz_integral by (rewrite map_length; lia). rewrite trapz_scale. unfold c. field. fold c. lra.
Qed.

(** ** plot_bs_dists *)

(** A bootstrap replication of [r], with the threads of [r] computed once. *)
Definition replication (E : env) (r rr : run) : Prop :=
  exists ths (v0 v1 v2 v3 : world E), get_run_threads r v0 = (Ok ths, v1) /\
    bootstrap_resample_run r (Some ths) false BKeep v2 = (Ok rr, v3).
(** The array given to fgivenx for the quantity [f]: a row for each replication,
    with the values and the weights of its samples in turn and then nan, and
    just wide enough for the largest replication. *)
Definition dist_rows (f : quantity) (rrs : list run) (rows : list (list fl)) : Prop :=
  exists width, (exists rr, In rr rrs /\ width = (2 * length (theta rr))%nat) /\
    (forall rr, In rr rrs -> (2 * length (theta rr) <= width)%nat) /\
    Forall2 (fun rr row => length row = width /\
      exists vs ws, f (theta rr) = Ok vs /\ get_w_rel rr None = Ok ws /\
        length vs = length (theta rr) /\ length ws = length (theta rr) /\
        (forall i, (i < length (theta rr))%nat ->
           nth (2 * i) row None = nth i vs None /\ nth (2 * i + 1) row None = Some (nth i ws 0)) /\
        (forall k, (2 * length (theta rr) <= k)%nat -> nth k row None = None)) rrs rows.
(** The mean of [f] with the weights of the samples. *)
Definition posterior_mean (r : run) (f : quantity) (m : fl) : Prop :=
  exists v logw, f (theta r) = Ok v /\ get_logw r None = Ok logw /\ length v = length logw /\
    (forall xs, v = map Some xs ->
       m = Some (average (length logw) (fun i => exp (nth i logw 0)) (fun i => nth i xs 0))) /\
    (In None v -> m = None).
Definition shows_dists (E : env) (r : run) (fs : list quantity) (n : nat) (mean : bool)
           (d : list (list (list fl)) * list fl) : Prop :=
  (exists rrs, length rrs = n /\ Forall (replication E r) rrs /\
     Forall2 (fun f rows => dist_rows f rrs rows) fs (fst d)) /\
  (if mean then Forall2 (posterior_mean r) fs (snd d) else snd d = []).

Lemma map2_some : forall c ws xs, length ws = length xs ->
    map2 (fun a x => fmul (Some (a / c)) x) ws (map Some xs) = map Some (map2 (fun a x => a / c * x) ws xs).
Proof.
  induction ws as [|a ws IH]; intros [|x xs] H; cbn [length] in H; try discriminate; auto.
  unfold map2 in *. cbn [map combine]. rewrite IH by lia. reflexivity.
Qed.
Lemma all_finite_some : forall l, all_finite (map Some l) = Some l.
Proof. induction l as [|x l IH]; cbn [map all_finite]; [auto|]. rewrite IH. auto. Qed.
Lemma all_finite_none : forall l, In None l -> all_finite l = None.
Proof.
  induction l as [|[x|] l IH]; intros H; [contradiction| |auto].
  destruct H as [H|H]; [discriminate|]. cbn [all_finite]. rewrite IH; auto.
Qed.
Lemma rsum_map2 : forall A B (g : A -> B -> R) da db a b, length a = length b ->
    rsum (map2 g a b) = sumR (map (fun i => g (nth i a da) (nth i b db)) (seq 0 (length a))).
Proof.
  intros A B g da db a b H. rewrite rsum_sumR. f_equal. apply nth_ext with 0 0.
  - rewrite map2_length, map_length, seq_length. lia.
  - intros i Hi. rewrite map2_length in Hi. rewrite (map_nth_in _ _ _ _ 0%nat) by (rewrite seq_length; lia).
    rewrite seq_nth by lia. apply (nth_map2 _ _ _ g a b i da db 0); lia.
Qed.
Lemma sumR_scale : forall A (g : A -> R) c l, sumR (map (fun i => c * g i) l) = c * sumR (map g l).
Proof. induction l as [|x l IH]; cbn [map sumR]; [lra|]. rewrite IH. lra. Qed.
Lemma sumR_pos : forall A (g : A -> R) l, l <> [] -> (forall i, In i l -> 0 < g i) -> 0 < sumR (map g l).
Proof.
  induction l as [|x l IH]; intros Hn H; [congruence|]. cbn [map sumR]. pose proof (H x (or_introl eq_refl)).
  destruct l as [|y l]; [cbn; lra|]. assert (0 < sumR (map g (y :: l))); [|lra].
  apply IH; [discriminate|]. intros; apply H; right; auto.
Qed.

Lemma means_are : forall r fs ms, means_of r fs = Ok ms -> Forall2 (posterior_mean r) fs ms.
Proof.
  intros r fs ms H. unfold means_of, get_w_rel in H.
  destruct (get_logw r None) as [logw|] eqn:Hlw; cbn [rbind] in H; [|discriminate].
  destruct (get_logw_facts _ _ _ Hlw I) as (Hne & _ & Hl1 & Hl2 & _).
  apply mapM_inv in H. eapply Forall2_mono; [|exact H]. clear H ms fs. intros f m H. cbv beta in H.
  destruct (f (theta r)) as [v|] eqn:Hf; cbn [rbind] in H; [|discriminate].
  rewrite rel_length in H. destruct (Nat.eqb_spec (length v) (length logw)) as [Hl|]; [|discriminate].
  assert (m = fsum (map2 (fun a x => fmul (Some (a / rsum (rel logw))) x) (rel logw) v)) by congruence. subst m. clear H.
  exists v, logw. split; auto. split; auto. split; auto. split.
  - intros xs ->. rewrite map_length in Hl. unfold fsum. rewrite (map2_some (rsum (rel logw)) (rel logw) xs) by (rewrite rel_length; lia).
    rewrite all_finite_some. cbn [option_map]. f_equal.
    set (w := rel logw). assert (Hw : length w = length logw) by apply rel_length.
    rewrite (rsum_map2 _ _ _ 0 0) by lia. rewrite Hw. unfold average.
    set (c := exp (- rmax logw)). assert (Hc : 0 < c) by apply exp_pos.
    assert (Hwi : forall i, (i < length logw)%nat -> nth i w 0 = c * exp (nth i logw 0)).
    { intros i Hi. unfold w, rel. rewrite (map_nth_in _ _ _ _ 0) by auto. unfold Rminus, c. rewrite exp_plus. lra. }
    assert (Hs : rsum w = c * sumR (map (fun i => exp (nth i logw 0)) (seq 0 (length logw)))).
    { rewrite rsum_sumR, <- sumR_scale. f_equal. apply nth_ext with 0 0; [rewrite map_length, seq_length; auto|].
      intros i Hi. rewrite (map_nth_in _ _ _ _ 0%nat) by (rewrite seq_length; lia). rewrite seq_nth by lia. apply Hwi. lia. }
    set (S := sumR (map (fun i => exp (nth i logw 0)) (seq 0 (length logw)))) in *.
    assert (HS : 0 < S).
    { apply sumR_pos; [|intros; apply exp_pos]. destruct (nlive_array r); [congruence|]. cbn [length] in Hl1.
      destruct (length logw); [lia|discriminate]. }
    unfold Rdiv. rewrite (Rmult_comm _ (/ S)), <- sumR_scale. f_equal. apply map_ext_in. intros i Hi.
    apply in_seq in Hi. rewrite Hwi, Hs by lia. field. lra.
  - intros Hin. unfold fsum. rewrite all_finite_none; [reflexivity|].
    apply In_nth with (d := None) in Hin as (i & Hi & Hn).
    assert (Hm : nth i (map2 (fun a x => fmul (Some (a / rsum (rel logw))) x) (rel logw) v) None = None).
    { rewrite (nth_map2 _ _ _ _ _ _ _ 0 None) by (rewrite ?rel_length; lia). rewrite Hn. reflexivity. }
    rewrite <- Hm. apply nth_In. rewrite map2_length, rel_length. lia.
Qed.

Lemma sample_row_is : forall width n vs ws row, sample_row width n vs (map Some ws) = Ok row -> (2 * n <= width)%nat ->
    length vs = n /\ length ws = n /\ length row = width /\
    (forall i, (i < n)%nat -> nth (2 * i) row None = nth i vs None /\ nth (2 * i + 1) row None = Some (nth i ws 0)) /\
    (forall k, (2 * n <= k)%nat -> nth k row None = None).
Proof.
  intros width n vs ws row H Hle. unfold sample_row in H. rewrite map_length in H.
  destruct (Nat.eqb_spec (length vs) n) as [Hv|]; [|discriminate].
  destruct (Nat.eqb_spec (length ws) n) as [Hw|]; [|discriminate]. cbn [andb] in H.
  assert (row = interleave vs (map Some ws) ++ repeat None (width - 2 * n)) by congruence. subst row. clear H.
  assert (Hl : length (interleave vs (map Some ws)) = (2 * n)%nat) by (rewrite interleave_length; rewrite ?map_length; lia).
  split; auto. split; auto. split; [rewrite app_length, Hl, repeat_length; lia|]. split.
  - intros i Hi. rewrite !app_nth1 by lia.
    destruct (interleave_nth _ None vs (map Some ws) i) as [E1 E2]; [rewrite map_length; lia|lia|].
    rewrite E1, E2, (map_nth_in _ _ Some None 0) by lia. auto.
  - intros k Hk. rewrite app_nth2 by lia. apply nth_repeat.
Qed.

Lemma samples_array_is : forall rrs bs f rows,
    Forall2 (fun rr p => fst p = theta rr /\ get_w_rel rr None = Ok (snd p)) rrs bs ->
    samples_array bs f = Ok rows -> dist_rows f rrs rows.
Proof.
  intros rrs bs f rows HF H. unfold samples_array in H. set (width := (2 * _)%nat) in H.
  assert (Hn : bs <> []) by (intros ->; discriminate).
  assert (H' : mapM (fun p => let! v := f (fst p) in sample_row width (length (fst p)) v (map Some (snd p))) bs = Ok rows).
  { destruct bs; [congruence|exact H]. } clear H.
  assert (Hmap : map (fun p => length (fst p)) bs = map (fun rr => length (theta rr)) rrs).
  { clear - HF. induction HF as [|rr p rrs bs [H1 _] _ IH]; cbn [map]; [auto|]. rewrite IH, H1. auto. }
  assert (Hle : forall rr, In rr rrs -> (2 * length (theta rr) <= width)%nat).
  { intros rr Hr. unfold width. apply Nat.mul_le_mono_l, list_max_ge. rewrite Hmap. apply in_map_iff. eauto. }
  exists width. split; [|split; auto].
  - assert (Hin : forall l, l <> [] -> In (list_max l) l).
    { induction l as [|x l IH]; intros Hl; [congruence|]. cbn [list_max fold_right]. fold (list_max l).
      destruct l as [|y l]; [left; cbn; lia|]. destruct (Nat.max_spec x (list_max (y :: l))) as [[_ ->]|[_ ->]]; [right; apply IH; discriminate|left; auto]. }
    unfold width. rewrite Hmap. assert (Hne : map (fun rr => length (theta rr)) rrs <> []).
    { rewrite <- Hmap. destruct bs; [congruence|discriminate]. }
    apply Hin, in_map_iff in Hne as (rr & He & Hr). exists rr. split; [auto|lia].
  - apply mapM_inv in H'. clear Hn Hmap. clearbody width. revert rows H' Hle.
    induction HF as [|rr p rrs bs [H1 H2] HF IH]; intros rows H' Hle; inversion H'; subst; constructor.
    + destruct (f (fst p)) as [v|] eqn:Hv; cbn [rbind] in *; [|discriminate]. rewrite H1 in *.
      destruct (sample_row_is width (length (theta rr)) v (snd p) y) as (A1 & A2 & A3 & A4 & A5); auto.
      { apply Hle. left; auto. }
      split; auto. exists v, (snd p). auto 10.
    + apply IH; auto. intros; apply Hle; right; auto.
Qed.

Lemma dists_shown : forall E r fs na nl n mc (w : world E) d w',
    plot_bs_dists r fs na nl n mc w = (Ok d, w') -> shows_dists E r fs n mc d.
Proof.
  intros E r fs na nl n mc w d w' H. unfold plot_bs_dists in H.
  apply wbind_Ok in H as (u1 & w1 & _ & H). apply wbind_Ok in H as (u2 & w2 & _ & H).
  apply wbind_Ok in H as (ths & w3 & Hths & H). apply wbind_Ok in H as (bs & w4 & Hbs & H).
  apply wbind_Ok in H as (arr & w5 & Harr & H). apply wbind_Ok in H as (ms & w6 & Hms & H).
  assert (d = (arr, ms)) by (destruct fs; [discriminate|]; injection H as <- _; auto). subst d. clear H.
  unfold shows_dists. cbn [fst snd]. split.
  - apply (wmapM_inv _ _ _ _ (fun _ p => exists rr, replication E r rr /\ fst p = theta rr /\ get_w_rel rr None = Ok (snd p))) in Hbs.
    2:{ intros a v b v' _ Hb. unfold bs_sample in Hb. apply wbind_Ok in Hb as (rr & v1 & Hrr & Hb).
        apply wbind_Ok in Hb as (wt & v2 & Hwt & Hb). injection Hb as <- _. unfold wlift in Hwt. injection Hwt as Hwt _.
        exists rr. split; [exists ths, w2, w3, v, v1; auto|]. auto. }
    assert (Hr : exists rrs, length rrs = n /\ Forall (replication E r) rrs /\
              Forall2 (fun rr p => fst p = theta rr /\ get_w_rel rr None = Ok (snd p)) rrs bs).
    { clear - Hbs. assert (Hn : length bs = n) by (apply Forall2_len in Hbs; rewrite seq_length in Hbs; auto).
      rewrite <- Hn. clear Hn. induction Hbs as [|k p ks bs (rr & H1 & H2) _ (rrs & I1 & I2 & I3)].
      - exists []. repeat split; constructor.
      - exists (rr :: rrs). cbn [length]. split; [auto|]. split; constructor; auto. }
    destruct Hr as (rrs & Hl & Hrep & HF). exists rrs. split; auto. split; auto.
    unfold wlift in Harr. injection Harr as Harr _. apply mapM_inv in Harr.
    eapply Forall2_mono; [|exact Harr]. intros f rows Hf. eapply samples_array_is; eauto.
  - destruct mc; [|injection Hms as <- _; auto]. unfold wlift in Hms. injection Hms as Hms _. apply means_are; auto.
Qed.

(** ** param_logx_diagram *)

(** The points of the plot of one quantity against logX: those at the positions
    [inds], in this order. *)
Definition points_at (r : run) (f : quantity) (inds : list nat) (q : list R * list fl) : Prop :=
  fst q = map (expected_logx r) inds /\ f (map (fun i => nth i (theta r) []) inds) = Ok (snd q).
(** Increasing list of the positions below [n] with [P]. *)
Definition positions (n : nat) (P : nat -> Prop) (inds : list nat) : Prop :=
  StronglySorted lt inds /\ forall i, In i inds <-> (i < n)%nat /\ P i.

Definition weights_shown {E} (U : uniforms E) (o : options) (r : run) (p : run_plot) : Prop :=
  length (p_weights p) = o_nsim o /\
  (fair U -> (2 <= length (logl r))%nat -> Forall (mass_curve U r) (p_weights p)).
Definition scatter_shown {E} (U : uniforms E) (fs : list quantity) (o : options) (rs : option Z) (r : run)
           (p : run_plot) : Prop :=
  let n := length (nlive_array r) in
  (o_thin o = 1 -> length (theta r) = n -> Forall2 (fun f q => points_at r f (seq 0 n) q) fs (p_scatter p)) /\
  (o_thin o <> 1 -> 0 < o_thin o < 1 /\
     exists s, (forall z, rs = Some z -> s = r_seed E z) /\
       (length (fst (U n s)) = n ->
        exists inds, positions n (fun i => nth i (fst (U n s)) 0 <= o_thin o) inds /\
          Forall2 (fun f q => points_at r f inds q) fs (p_scatter p))).
Definition threads_shown (fs : list quantity) (o : options) (r : run) (p : run_plot) : Prop :=
  match o_threads o with
  | None => Forall2 (fun f qs => qs = []) fs (p_threads p)
  | Some labels =>
      Forall2 (fun f qs => Forall2 (fun lab q =>
        exists labs, thread_labels r = Some labs /\
          (length labs = length (nlive_array r) ->
           exists inds, positions (length labs) (fun i => nth i labs 0%Z = lab) inds /\ points_at r f inds q))
        labels qs) fs (p_threads p)
  end.
Definition means_shown (fs : list quantity) (o : options) (r : run) (p : run_plot) : Prop :=
  if o_means o then Forall2 (posterior_mean r) fs (p_means p) else p_means p = [].

Lemma where_positions : forall A (b : A -> bool) (d : A) l (P : nat -> Prop),
    (forall i, (i < length l)%nat -> (b (nth i l d) = true <-> P i)) -> positions (length l) P (where_ b l).
Proof.
  intros A b d l P H. split; [apply where_sorted|]. intros i. rewrite (in_where _ b d). split.
  - intros [H1 H2]. split; auto. apply H; auto.
  - intros [H1 H2]. split; auto. apply H; auto.
Qed.
Lemma take_logx : forall r lx inds, get_logx (nlive_array r) None = Ok lx ->
    (forall i, In i inds -> (i < length (nlive_array r))%nat) -> take 0 lx inds = map (expected_logx r) inds.
Proof.
  intros r lx inds H Hi. destruct (expected_is _ _ H) as (Hl & Hx). unfold take. apply map_ext_in.
  intros i Hin. apply Hx. rewrite Hl. auto.
Qed.
Lemma nth_seq_all : forall A (d : A) l, map (fun i => nth i l d) (seq 0 (length l)) = l.
Proof. intros A d l. rewrite <- (firstn_seq A d) by auto. apply firstn_all. Qed.

Section Inversion.
  Context {E : env} (U : uniforms E) (fs : list quantity) (o : options) (rs : option Z) (fresh : nat -> rst E).

  Lemma plot_run_shows : forall lim st k r v p st' v',
      plot_run U fs o rs fresh lim st k r v = (Ok (p, st'), v') ->
      weights_shown U o r p /\ scatter_shown U fs o rs r p /\ threads_shown fs o r p /\ means_shown fs o r p /\
      shows_dists E r fs (o_nsim o) (o_means o) (p_dists p) /\
      match lim with
      | Some m => p_limit p = m
      | None => p_weights p <> [] /\ p_limit p = fmin (map (fun row => nth 0 row None) (p_weights p))
      end.
  Proof.
    intros lim st k r v p st' v' H. unfold plot_run in H.
    apply wbind_Ok in H as (rows & v1 & Hrows & H). apply wbind_Ok in H as (lim' & v2 & Hlim & H).
    apply wbind_Ok in H as (u3 & v3 & _ & H). apply wbind_Ok in H as (logx & v4 & Hlx & H).
    unfold wlift in Hlx. injection Hlx as Hlx _.
    apply wbind_Ok in H as ([[sx sth] st1] & v5 & Hsc & H).
    apply wbind_Ok in H as (sct & v6 & Hsct & H). cbv zeta in H.
    apply wbind_Ok in H as (u7 & v7 & _ & H). apply wbind_Ok in H as (d & v8 & Hd & H).
    apply wbind_Ok in H as (m & v9 & Hm & H).
    assert (p = mkRunPlot rows lim' (map fst sct) (map snd sct) d m).
    { injection H as <- _ _. auto. } subst p. clear H.
    destruct (expected_is _ _ Hlx) as (Hxl & Hx).
    set (P := fun (f : quantity) (y : (list R * list fl) * list (list R * list fl)) =>
       fst (fst y) = sx /\ f sth = Ok (snd (fst y)) /\
       Forall2 (fun lab q => exists labs, thread_labels r = Some labs /\
                 fst q = take 0 logx (where_ (fun j => (j =? lab)%Z) labs) /\
                 f (take [] (theta r) (where_ (fun j => (j =? lab)%Z) labs)) = Ok (snd q))
               (match o_threads o with Some l => l | None => [] end) (snd y)).
    assert (HP : Forall2 P fs sct).
    { eapply wmapM_inv; [|exact Hsct]. intros f a b a' _ Hf.
      apply wbind_Ok in Hf as (fv & a1 & Hfv & Hf). unfold wlift in Hfv. injection Hfv as Hfv _.
      apply wbind_Ok in Hf as (u & a2 & _ & Hf). apply wbind_Ok in Hf as (th & a3 & Hth & Hf).
      injection Hf as <- _. unfold P. cbn [fst snd]. split; auto. split; auto.
      eapply wmapM_inv; [|exact Hth]. intros lab b b' b'' _ Hb.
      apply wbind_Ok in Hb as (labs & b1 & Hlabs & Hb). cbv zeta in Hb.
      apply wbind_Ok in Hb as (tv & b2 & Htv & Hb). unfold wlift in Htv. injection Htv as Htv _.
      apply wbind_Ok in Hb as (u' & b3 & _ & Hb). injection Hb as <- _. cbn [fst snd].
      destruct (thread_labels r) as [labs'|]; [|discriminate]. injection Hlabs as <- _. eauto. }
    clear Hsct. cbn [p_weights p_limit p_scatter p_threads p_dists p_means].
    unfold weights_shown, scatter_shown, threads_shown, means_shown. cbn [p_weights p_limit p_scatter p_threads p_dists p_means].
    split; [|split; [|split; [|split; [|split]]]].
    - split.
      + apply (wmapM_inv _ _ _ _ (fun _ _ => True)) in Hrows; [|auto].
        apply Forall2_len in Hrows. rewrite seq_length in Hrows. auto.
      + intros HU H2. eapply wmapM_all; [|exact Hrows]. intros a b c e Ha. apply (weight_row_curve _ U r b c e); auto.
    - cbv zeta. split.
      + intros Ht Hth. destruct (Req_EM_T (o_thin o) 1); [|contradiction].
        assert (sx = logx /\ sth = theta r) as [-> ->] by (unfold wret in Hsc; split; congruence).
        apply Forall2_map_r. eapply Forall2_mono; [|exact HP]. intros f y (A1 & A2 & _). split.
        * rewrite A1, <- (nth_seq_all _ 0 logx), Hxl. apply map_ext_in. intros i Hi. apply in_seq in Hi. apply Hx. lia.
        * rewrite <- Hth, nth_seq_all. auto.
      + intros Ht. destruct (Req_EM_T (o_thin o) 1); [contradiction|].
        apply wbind_Ok in Hsc as (u1 & a1 & Hass & Hsc). split.
        { unfold wassert, wlift, assertb, negative, nonzero, le_thin in Hass.
          destruct (Rlt_dec (o_thin o) 0), (Req_EM_T (o_thin o) 0), (Rle_dec (o_thin o) 1); cbn in Hass; try discriminate.
          lra. }
        apply wbind_Ok in Hsc as (s0 & a2 & _ & Hsc). apply wbind_Ok in Hsc as (u2 & a3 & Hseed & Hsc).
        destruct (valid_seed_dec rs) as [Hrs|(z0 & Hz0 & Hz1)]; [|rewrite Hz0, seed_with_bad in Hseed by auto; discriminate].
        rewrite seed_with_run in Hseed by auto. injection Hseed as _ <-.
        apply wbind_Ok in Hsc as (us & a4 & Hus & Hsc). cbv zeta in Hsc.
        apply wbind_Ok in Hsc as (u5 & a5 & _ & Hsc).
        unfold random in Hus. cbn [w_rng w_warn] in Hus.
        set (s := match rs with Some z => _ | None => _ end) in Hus.
        exists s. split; [intros z ->; reflexivity|].
        assert (Hus' : us = fst (U (length (nlive_array r)) s)).
        { rewrite Hxl in Hus. destruct (U (length (nlive_array r)) s). injection Hus as <- _. auto. }
        intros Hn. exists (where_ (le_thin (o_thin o)) us). rewrite <- Hus' in *.
        assert (Hpos : positions (length (nlive_array r)) (fun i => nth i us 0 <= o_thin o) (where_ (le_thin (o_thin o)) us)).
        { rewrite <- Hn. apply where_positions with (d := 0). intros i Hi. unfold le_thin.
          destruct (Rle_dec (nth i us 0) (o_thin o)); split; auto; discriminate. }
        split; auto.
        assert (sx = take 0 logx (where_ (le_thin (o_thin o)) us) /\ sth = take [] (theta r) (where_ (le_thin (o_thin o)) us))
          as [-> ->] by (unfold wret in Hsc; split; congruence).
        apply Forall2_map_r. eapply Forall2_mono; [|exact HP]. intros f y (A1 & A2 & _). split; [|exact A2].
        rewrite A1. apply take_logx; auto. intros i Hi. apply Hpos in Hi. tauto.
    - destruct (o_threads o) as [labels|].
      + apply Forall2_map_r. eapply Forall2_mono; [|exact HP]. intros f y (_ & _ & A3).
        eapply Forall2_mono; [|exact A3]. intros lab q (labs & B1 & B2 & B3). exists labs. split; auto.
        intros Hl. assert (Hpos : positions (length labs) (fun i => nth i labs 0%Z = lab) (where_ (fun j => (j =? lab)%Z) labs)).
        { apply where_positions with (d := 0%Z). intros i Hi. apply Z.eqb_eq. }
        exists (where_ (fun j => (j =? lab)%Z) labs). split; auto. split; [|exact B3].
        rewrite B2. apply take_logx; auto. intros i Hi. apply Hpos in Hi. lia.
      + apply Forall2_map_r. eapply Forall2_mono; [|exact HP]. intros f y (_ & _ & A3). inversion A3. auto.
    - destruct (o_means o); [|injection Hm as <- _; auto]. unfold wlift in Hm. injection Hm as Hm _. apply means_are; auto.
    - eapply dists_shown; eauto.
    - destruct lim as [m0|]; [injection Hlim as <- _; auto|]. destruct rows as [|row rows]; [discriminate|].
      split; [discriminate|]. assert (lim' = fmin (map (fun row => nth 0 row None) (row :: rows))) by (unfold wret in Hlim; congruence). auto.
  Qed.

  Definition step := fun '(acc, st) '(nrun, r) =>
    let* p := plot_run U fs o rs fresh (limit_before o acc) st nrun r in wret (acc ++ [fst p], snd p).
  Lemma steps_inv : forall l acc st v out st' v', wfoldM step l (acc, st) v = (Ok (out, st'), v') ->
      exists ps, out = acc ++ ps /\ length ps = length l /\
        forall j k r, nth_error l j = Some (k, r) -> exists p s1 w1 s2 w2,
          nth_error ps j = Some p /\
          plot_run U fs o rs fresh (limit_before o (acc ++ firstn j ps)) s1 k r w1 = (Ok (p, s2), w2).
  Proof.
    induction l as [|[k0 r0] l IH]; intros acc st v out st' v' H; cbn [wfoldM] in H.
    - injection H as <- <- _. exists []. rewrite app_nil_r. split; auto. split; auto. intros [|j] k r Hj; discriminate.
    - apply wbind_Ok in H as ([acc1 st1] & v1 & H1 & H). unfold step in H1 at 1.
      apply wbind_Ok in H1 as ([p s1] & v2 & Hp & H1). injection H1 as <- <- <-.
      apply IH in H as (ps & -> & Hl & Hj). exists (p :: ps). rewrite <- app_assoc. split; auto.
      split; [cbn [length]; lia|]. intros [|j] k r He.
      + cbn [nth_error] in He. injection He as <- <-. exists p. do 4 eexists. split; [reflexivity|].
        cbn [firstn]. rewrite app_nil_r. exact Hp.
      + destruct (Hj j k r He) as (q & a & b & c & e & Hq & Hr). exists q, a, b, c, e. split; auto.
        cbn [firstn]. rewrite <- app_assoc in Hr. exact Hr.
  Qed.

  (** The runs are plotted from the last one to the first. *)
  Lemma diagram_inv : forall runs w out w', param_logx_diagram U runs fs o rs fresh w = (Ok out, w') ->
      runs <> [] /\ length out = length runs /\
      forall j r, nth_error (rev runs) j = Some r -> exists p k s1 w1 s2 w2,
        nth_error out j = Some p /\
        plot_run U fs o rs fresh (limit_before o (firstn j out)) s1 k r w1 = (Ok (p, s2), w2).
  Proof.
    intros runs w out w' H. pose proof (diagram_valid _ _ _ _ _ _ _ _ _ H) as Hrs. assert (Hf : fs <> []).
    { intros Hf. rewrite diagram_none in H by auto. discriminate. }
    assert (Hn : runs <> []).
    { intros ->. unfold param_logx_diagram in H. apply wbind_Ok in H as (a1 & b1 & _ & H).
      apply wbind_Ok in H as (a2 & b2 & _ & H). apply wbind_Ok in H as (a3 & b3 & _ & H).
      apply wbind_Ok in H as (a4 & b4 & _ & H). apply wbind_Ok in H as (a5 & b5 & _ & H).
      apply wbind_Ok in H as (a6 & b6 & _ & H). discriminate. }
    split; auto. rewrite diagram_run in H by auto. destruct (_ && _)%bool; [|discriminate].
    set (s := match rs with Some z => _ | None => _ end) in H.
    destruct (loop U fs o rs fresh runs (w_rng w) (mkW s (w_warn w))) as [[[x st]|e] w1] eqn:Hloop; [|discriminate].
    injection H as <- _. unfold loop in Hloop. apply (steps_inv _ [] (w_rng w)) in Hloop as (ps & -> & Hl & Hj).
    cbn [app] in *. rewrite rev_length, combine_length, seq_length, Nat.min_id in Hl. split; auto.
    intros j r Hr. set (L := combine (seq 0 (length runs)) runs) in *.
    assert (HL : map snd L = runs).
    { unfold L. clear. generalize 0%nat. induction runs as [|a l IH]; intros i; cbn; [auto|]. f_equal. apply IH. }
    assert (He : exists k, nth_error (rev L) j = Some (k, r)).
    { rewrite <- HL, <- map_rev, nth_error_map in Hr. destruct (nth_error (rev L) j) as [[k r']|]; [|discriminate].
      injection Hr as <-. eauto. }
    destruct He as (k & He). destruct (Hj j k r He) as (p & s1 & a1 & s2 & a2 & Hp & Hq). exists p, k, s1, a1, s2, a2. auto.
  Qed.
End Inversion.

Lemma forall2_rev : forall (runs : list run) (out : list run_plot) (Q : run -> run_plot -> Prop),
    length out = length runs ->
    (forall j r, nth_error (rev runs) j = Some r -> exists p, nth_error out j = Some p /\ Q r p) ->
    Forall2 Q (rev runs) out.
Proof.
  intros runs out Q Hl H. rewrite <- (rev_length runs) in Hl. revert out Hl H. generalize (rev runs).
  induction l as [|r l IH]; intros [|p out] Hl H; cbn [length] in Hl; try discriminate; constructor.
  - destruct (H 0%nat r eq_refl) as (q & Hq & HQ). cbn in Hq. congruence.
  - apply IH; [lia|]. intros j r' Hj. apply (H (S j) r' Hj).
Qed.
Lemma diagram_shows : forall E (U : uniforms E) runs fs o rs fresh w out w' (Q : run -> run_plot -> Prop),
    param_logx_diagram U runs fs o rs fresh w = (Ok out, w') ->
    (forall lim st k r v p st' v', plot_run U fs o rs fresh lim st k r v = (Ok (p, st'), v') -> Q r p) ->
    Forall2 Q (rev runs) out.
Proof.
  intros E U runs fs o rs fresh w out w' Q H HQ. apply diagram_inv in H as (_ & Hl & Hj).
  apply forall2_rev; auto. intros j r Hr. destruct (Hj j r Hr) as (p & k & s1 & w1 & s2 & w2 & Hp & Hq).
  exists p. split; auto. eapply HQ; eauto.
Qed.

(** ** C79 *)

(** The curves of the posterior mass: n_simulate for each run. *)
Theorem C79_weights : forall E (U : uniforms E) runs fthetas o random_seed fresh w out w',
    fair U -> (forall r, In r runs -> (2 <= length (logl r))%nat) ->
    param_logx_diagram U runs fthetas o random_seed fresh w = (Ok out, w') ->
    Forall2 (fun r p => length (p_weights p) = o_nsim o /\ Forall (mass_curve U r) (p_weights p)) (rev runs) out.
Proof.
  intros E U runs fs o rs fresh w out w' HU H2 H.
  assert (HF : Forall2 (fun r p => In r (rev runs) /\ weights_shown U o r p) (rev runs) out).
  { apply diagram_inv in H as (_ & Hl & Hj). apply forall2_rev; auto. intros j r Hr.
    destruct (Hj j r Hr) as (p & k & s1 & w1 & s2 & w2 & Hp & Hq). exists p. split; auto.
    split; [eapply nth_error_In; eauto|]. apply plot_run_shows in Hq. tauto. }
  eapply Forall2_mono; [|exact HF]. intros r p (Hin & A1 & A2). split; auto. apply A2; auto. apply H2, in_rev; auto.
Qed.

(** The samples in the plots against logX: all of them, or those selected with
    the same random numbers for every quantity. *)
Theorem C79_points : forall E (U : uniforms E) runs fthetas o random_seed fresh w out w',
    (forall n s, length (fst (U n s)) = n) -> (forall r, In r runs -> length (theta r) = length (nlive_array r)) ->
    param_logx_diagram U runs fthetas o random_seed fresh w = (Ok out, w') ->
    Forall2 (fun r p => exists inds,
      Forall2 (fun f q => points_at r f inds q) fthetas (p_scatter p) /\
      (o_thin o = 1 -> inds = seq 0 (length (theta r))) /\
      (o_thin o <> 1 -> 0 < o_thin o < 1 /\ exists s, (forall z, random_seed = Some z -> s = r_seed E z) /\
         positions (length (theta r)) (fun i => nth i (fst (U (length (theta r)) s)) 0 <= o_thin o) inds)) (rev runs) out.
Proof.
  intros E U runs fs o rs fresh w out w' HU H2 H.
  assert (HF : Forall2 (fun r p => In r (rev runs) /\ scatter_shown U fs o rs r p) (rev runs) out).
  { apply diagram_inv in H as (_ & Hl & Hj). apply forall2_rev; auto. intros j r Hr.
    destruct (Hj j r Hr) as (p & k & s1 & w1 & s2 & w2 & Hp & Hq). exists p. split; auto.
    split; [eapply nth_error_In; eauto|]. apply plot_run_shows in Hq. tauto. }
  eapply Forall2_mono; [|exact HF]. intros r p (Hin & A1 & A2). apply in_rev in Hin. rewrite (H2 r Hin).
  destruct (Req_EM_T (o_thin o) 1) as [Ht|Ht].
  - exists (seq 0 (length (nlive_array r))). split; [apply A1; auto|]. split; auto. contradiction.
  - destruct (A2 Ht) as (Hr & s & Hs & Hi). destruct (Hi (HU _ _)) as (inds & Hp & Hq).
    exists inds. split; auto. split; [contradiction|]. intros _. split; auto. exists s. auto.
Qed.

(** The lines of the threads. *)
Theorem C79_threads : forall E (U : uniforms E) runs fthetas o random_seed fresh w out w',
    (forall r labs, In r runs -> thread_labels r = Some labs -> length labs = length (nlive_array r)) ->
    param_logx_diagram U runs fthetas o random_seed fresh w = (Ok out, w') ->
    Forall2 (fun r p =>
      match o_threads o with
      | None => Forall2 (fun f qs => qs = []) fthetas (p_threads p)
      | Some labels =>
          Forall2 (fun f qs => Forall2 (fun lab q =>
            exists labs inds, thread_labels r = Some labs /\
              positions (length labs) (fun i => nth i labs 0%Z = lab) inds /\ points_at r f inds q)
            labels qs) fthetas (p_threads p)
      end) (rev runs) out.
Proof.
  intros E U runs fs o rs fresh w out w' H2 H.
  assert (HF : Forall2 (fun r p => In r (rev runs) /\ threads_shown fs o r p) (rev runs) out).
  { apply diagram_inv in H as (_ & Hl & Hj). apply forall2_rev; auto. intros j r Hr.
    destruct (Hj j r Hr) as (p & k & s1 & w1 & s2 & w2 & Hp & Hq). exists p. split; auto.
    split; [eapply nth_error_In; eauto|]. apply plot_run_shows in Hq. tauto. }
  eapply Forall2_mono; [|exact HF]. intros r p (Hin & A). apply in_rev in Hin. unfold threads_shown in A.
  destruct (o_threads o) as [labels|]; auto. eapply Forall2_mono; [|exact A]. intros f qs HA.
  eapply Forall2_mono; [|exact HA]. intros lab q (labs & B1 & B2). destruct (B2 (H2 _ _ Hin B1)) as (inds & B3 & B4).
  exists labs, inds. auto.
Qed.

(** The left end of the axis of logX: the argument logx_min, or the smallest
    logX in the curves of the last run. *)
Theorem C79_limit : forall E (U : uniforms E) runs fthetas o random_seed fresh w out w',
    fair U -> (forall r, In r runs -> (2 <= length (logl r))%nat) ->
    param_logx_diagram U runs fthetas o random_seed fresh w = (Ok out, w') ->
    exists lim, (forall p, In p out -> p_limit p = Some lim) /\
      match o_logx_min o with
      | Some m => lim = m
      | None => exists p0 rest, out = p0 :: rest /\
          (exists row, In row (p_weights p0) /\ nth 0 row None = Some lim) /\
          forall row i x, In row (p_weights p0) -> nth (2 * i) row None = Some x -> lim <= x
      end.
Proof.
  intros E U runs fs o rs fresh w out w' HU H2 H.
  pose proof (C79_weights _ _ _ _ _ _ _ _ _ _ HU H2 H) as HW.
  apply diagram_inv in H as (Hn & Hl & Hj).
  assert (Hout : exists p0 rest, out = p0 :: rest).
  { destruct out as [|p0 rest]; [|eauto]. destruct runs; [congruence|discriminate]. }
  destruct Hout as (p0 & rest & ->).
  assert (Hall : exists l0, p_limit p0 = l0 /\ forall p, In p (p0 :: rest) -> p_limit p = l0).
  { exists (p_limit p0). split; auto.
    assert (Hk : forall j p, nth_error (p0 :: rest) j = Some p -> p_limit p = p_limit p0).
    { induction j as [j IH] using lt_wf_ind. intros p Hp.
      assert (Hlt : (j < length runs)%nat) by (rewrite <- Hl; apply nth_error_Some; congruence).
      assert (Hr : exists r, nth_error (rev runs) j = Some r).
      { destruct (nth_error (rev runs) j) eqn:He; [eauto|]. apply nth_error_None in He. rewrite rev_length in He. lia. }
      destruct Hr as (r & Hr). destruct (Hj j r Hr) as (q & k & s1 & w1 & s2 & w2 & Hq & Hpr).
      assert (q = p) by congruence. subst q. apply plot_run_shows in Hpr as (_ & _ & _ & _ & _ & Hlim).
      destruct j as [|j]; [cbn in Hp; congruence|]. cbn [firstn limit_before] in Hlim. rewrite Hlim.
      destruct (firstn j rest) as [|q1 qs] eqn:Hf; [auto|]. 
      assert (Hlast : In (last (q1 :: qs) p0) (q1 :: qs)).
      { rewrite (app_removelast_last p0 (l := q1 :: qs)) at 2 by discriminate. apply in_or_app. right. left. auto. }
      apply In_nth_error in Hlast as (i & Hi). assert (Hil : (i < length (firstn j rest))%nat).
      { rewrite Hf. apply nth_error_Some. congruence. }
      rewrite firstn_length in Hil. apply (IH (S i)); [lia|]. cbn [nth_error].
      rewrite <- Hi, <- Hf. rewrite <- (firstn_skipn j rest) at 1. rewrite nth_error_app1; [auto|]. rewrite firstn_length. lia. }
    intros p Hp. apply In_nth_error in Hp as (j & Hp). eauto. }
  destruct Hall as (l0 & Hl0 & Hall).
  assert (Hr : exists r rr, rev runs = r :: rr).
  { destruct (rev runs) as [|r rr] eqn:He; [|eauto]. apply (f_equal (@length _)) in He. rewrite rev_length in He.
    destruct runs; [congruence|discriminate]. }
  destruct Hr as (r & rr & Hr).
  destruct (Hj 0%nat r) as (q & k & s1 & w1 & s2 & w2 & Hq & Hpr); [rewrite Hr; auto|].
  cbn in Hq. assert (q = p0) by congruence. subst q. cbn [firstn limit_before] in Hpr.
  apply plot_run_shows in Hpr as (_ & _ & _ & _ & _ & Hlim).
  destruct (o_logx_min o) as [m|]; cbn [option_map] in Hlim.
  - exists m. split; auto. intros p Hp. rewrite (Hall p Hp). congruence.
  - rewrite Hr in HW. inversion HW as [|? ? ? ? (_ & Hc) _]; subst. clear HW.
    destruct Hlim as (Hne & Hlim).
    assert (Hfin : exists xs, map (fun row => nth 0 row None) (p_weights p0) = map Some xs).
    { clear - Hc Hr H2. assert (Hin : In r runs) by (apply in_rev; rewrite Hr; left; auto). specialize (H2 r Hin).
      induction Hc as [|row rows (s & ws & _ & _ & Hrow & _) _ (xs & IH)]; [exists []; auto|].
      destruct (Hrow 0%nat ltac:(lia)) as (H0 & _). change (2 * 0)%nat with 0%nat in H0. eexists (_ :: xs). cbn [map]. rewrite IH, H0. reflexivity. }
    destruct Hfin as (xs & Hxs). unfold fmin in Hlim. rewrite Hxs, all_finite_some in Hlim. cbn [option_map] in Hlim.
    assert (Hxn : xs <> []) by (intros ->; destruct (p_weights p0); [congruence|discriminate]).
    destruct (PropCurves.rmin_spec xs Hxn) as (M1 & M2).
    exists (rmin xs). split; [intros p Hp; rewrite (Hall p Hp); congruence|].
    exists p0, rest. split; auto. split.
    + assert (Hi : In (Some (rmin xs)) (map Some xs)) by (apply in_map; auto). rewrite <- Hxs in Hi.
      apply in_map_iff in Hi as (row & E1 & E2). exists row. auto.
    + intros row i x Hrow Hx1.
      assert (Hf : exists x0, nth 0 row None = Some x0 /\ rmin xs <= x0).
      { assert (Hi : In (nth 0 row None) (map Some xs)) by (rewrite <- Hxs; apply in_map_iff; eauto).
        apply in_map_iff in Hi as (x0 & E1 & E2). exists x0. split; auto. }
      destruct Hf as (x0 & Hx0 & Hle). rewrite Forall_forall in Hc.
      destruct (Hc row Hrow) as (s & ws & Hws & Hlen & Hat & Hsorted & _).
      set (us := fst (U (length (logl r)) s)) in *. set (n := length (logl r)) in *.
      set (xl := map (fun i => drawn_logx r us (n - 1 - i)) (seq 0 n)) in *.
      assert (Hin : (i < n)%nat).
      { destruct (Nat.lt_ge_cases i n); auto. rewrite nth_overflow in Hx1 by lia. discriminate. }
      destruct (Hat i Hin) as (Hxi & _). assert (E2 : In x xl).
      { assert (x = nth i xl 0) by congruence. subst x. apply nth_In. unfold xl. rewrite map_length, seq_length. auto. }
      assert (Hir : In r runs) by (apply in_rev; rewrite Hr; left; auto). specialize (H2 r Hir). fold n in H2.
      destruct (Hat 0%nat ltac:(lia)) as (H0 & _). change (2 * 0)%nat with 0%nat in H0.
      assert (x0 = nth 0 xl 0) by congruence.
      destruct xl as [|y xl]; [contradiction|]. cbn [nth] in H. destruct E2 as [E2|E2]; [lra|].
      inversion Hsorted as [|? ? _ Hall2]; subst. rewrite Forall_forall in Hall2. specialize (Hall2 x E2). lra.
Qed.

(** A run of two threads with one sample each. *)
Definition run_short : run :=
  mkRun [2; 4]%Z [[20]; [40]]%Z [2; 1]%Z (Some [0; 1]%Z) (Some [(NInf, 2%Z); (NInf, 4%Z)]) None None.
Lemma run_short_static : static_run run_short.
Proof.
  split; [intros n [<-|[<-|[]]]; lia|]. exists [0; 1]%Z, [(NInf, 2%Z); (NInf, 4%Z)]. split; [|split].
  - split; [reflexivity|]. split; [reflexivity|]. unfold valid_columns, run_short.
    cbn [logl theta nlive_array thread_labels thread_min_max length map fst snd ext_opt].
    split; [reflexivity|]. split; [reflexivity|]. split; [reflexivity|].
    split; [repeat (constructor; try lia)|]. split; [reflexivity|].
    split; [intros x; cbn; lia|]. split; [left; auto|].
    intros k Hk. split.
    + intros f m _. destruct k as [|[|k]]; cbn; try lia; discriminate.
    + intros l (L1 & L2 & L3). cbn [length] in L1. destruct k as [|[|k]]; try lia; destruct l as [|[|l]]; cbn in *; try lia.
  - intros m e [H|[H|[]]]; discriminate.
  - intros i j Hij. cbn [logl run_short length] in Hij. destruct i as [|[|i]], j as [|[|j]]; cbn; lia.
Qed.
Lemma short_runs : Forall static_run [run_other; run_short].
Proof. constructor; [apply run_other_static|]. constructor; [apply run_short_static|constructor]. Qed.
Lemma flat_fair : fair flat_uniforms.
Proof.
  intros n s. unfold flat_uniforms. cbn [fst]. split; [apply repeat_length|].
  intros u Hu. apply repeat_spec in Hu. subst u. lra.
Qed.
Lemma short_diagram : forall runs o, o = whole_options \/ o = half_options -> (1 <= length runs <= 3)%nat -> Forall static_run runs ->
    exists out w', param_logx_diagram flat_uniforms runs [col0] o (Some 0%Z) (fun _ => [])
                                      (@mkW (script_env []) [7%nat] []) = (Ok out, w').
Proof.
  intros runs o Ho Hl Hs.
  destruct (C70_param_logx_diagram_ok flat_uniforms (fun n s => proj1 (flat_fair n s)) runs [col0] o (Some 0%Z) (fun _ => [])
              (@mkW (script_env []) [7%nat] [])) as (out & w' & H & _);
    try (destruct Ho as [-> | ->]; cbn; lia || lra || reflexivity); auto.
  - discriminate.
  - repeat constructor. apply col0_total.
  - intros z Hz. injection Hz as <-. lia.
  - eauto.
Qed.

(** The axis need not show the curves of the other runs: with logx_min not
    given, part of the curves of the first run is left of the plot. *)
Theorem C79_limit_refuted :
    ~ (forall E (U : uniforms E) runs fthetas o random_seed (fresh : nat -> rst E) w out w',
         fair U -> (forall r, In r runs -> static_run r /\ (2 <= length (logl r))%nat) -> o_logx_min o = None ->
         param_logx_diagram U runs fthetas o random_seed fresh w = (Ok out, w') ->
         forall p lim row i x, In p out -> p_limit p = Some lim -> In row (p_weights p) -> nth (2 * i) row None = Some x -> lim <= x).
Proof.
  intros H.
  destruct (short_diagram [run_other; run_short] whole_options) as (out & w' & Ho);
    [auto|cbn; lia|apply short_runs|].
  assert (Hr : forall r, In r [run_other; run_short] -> static_run r /\ (2 <= length (logl r))%nat).
  { intros r [<-|[<-|[]]]; (split; [apply run_other_static || apply run_short_static|cbn; lia]). }
  specialize (fun Hm => H _ _ _ _ _ _ _ _ _ _ flat_fair Hr Hm Ho). specialize (H eq_refl).
  assert (Hr2 : forall r, In r [run_other; run_short] -> (2 <= length (logl r))%nat) by (intros r Hi; apply Hr; auto).
  destruct (C79_limit _ _ _ _ _ _ _ _ _ _ flat_fair Hr2 Ho) as (lim & Hlim & p0 & rest & Hout & (row0 & Hrow0 & H0) & _).
  pose proof (C79_weights _ _ _ _ _ _ _ _ _ _ flat_fair Hr2 Ho) as HW. cbn [rev app] in HW.
  inversion HW as [|r1 q0 l1 l2 (_ & W0) HW1 E1 E2]. clear HW. inversion HW1 as [|r2 q1 l3 l4 (N1 & W1) HW2 E3 E4]. clear HW1.
  inversion HW2. subst. clear HW2. injection E2 as E2a E2b. subst.
  rewrite Forall_forall in W0, W1. destruct (p_weights q1) as [|row1 rows1] eqn:Hq1; [discriminate|].
  destruct (W0 row0 Hrow0) as (s0 & ws0 & _ & _ & A0 & _). destruct (W1 row1 (or_introl eq_refl)) as (s1 & ws1 & _ & L1 & A1 & _).
  destruct (A0 0%nat) as (B0 & _); [cbn; lia|]. destruct (A1 0%nat) as (B1 & _); [cbn; lia|].
  change (2 * 0)%nat with 0%nat in B0, B1. rewrite H0 in B0.
  set (x0 := nth 0 (map _ (seq 0 (length (logl run_short)))) 0) in B0.
  set (x1 := nth 0 (map _ (seq 0 (length (logl run_other)))) 0) in B1.
  assert (lim = x0) by congruence. subst lim.
  assert (Hle : x0 <= x1).
  { apply (H q1 x0 row1 0%nat x1); [right; left; auto|apply Hlim; right; left; auto|rewrite Hq1; left; auto|exact B1]. }
  cbn in x0, x1. unfold x0, x1, drawn_logx in Hle. cbn in Hle.
  assert (ln (1 / 4) < 0) by (rewrite <- ln_1; apply ln_increasing; lra). lra.
Qed.
Print Assumptions C79_weights.
Print Assumptions C79_points.
Print Assumptions C79_threads.
Print Assumptions C79_limit.
Print Assumptions C79_limit_refuted.

(** The hypotheses can be met. *)
Example C79_example : exists out w',
    param_logx_diagram flat_uniforms [run_other; run_short] [col0] half_options (Some 0%Z) (fun _ => [])
                       (@mkW (script_env []) [7%nat] []) = (Ok out, w') /\
    fair flat_uniforms /\
    (forall r, In r [run_other; run_short] ->
       (2 <= length (logl r))%nat /\ length (theta r) = length (nlive_array r) /\
       forall labs, thread_labels r = Some labs -> length labs = length (nlive_array r)).
Proof.
  destruct (short_diagram [run_other; run_short] half_options) as (out & w' & Ho);
    [auto|cbn; lia|apply short_runs|].
  exists out, w'. split; auto. split; [apply flat_fair|].
  intros r [<-|[<-|[]]]; (split; [cbn; lia|split; [reflexivity|]]); intros labs Hl; injection Hl as <-; reflexivity.
Qed.

(** ** C80 *)

(** The arrays of one call of plot_bs_dists use the same replications for every
    quantity. *)
Theorem C80_plot_bs_dists : forall E r fthetas naxes nlims n_simulate mean_color (w : world E) d w',
    plot_bs_dists r fthetas naxes nlims n_simulate mean_color w = (Ok d, w') ->
    (exists rrs, length rrs = n_simulate /\ Forall (replication E r) rrs /\
       Forall2 (fun f rows => dist_rows f rrs rows) fthetas (fst d)) /\
    (if mean_color then Forall2 (posterior_mean r) fthetas (snd d) else snd d = []).
Proof. intros. eapply dists_shown; eauto. Qed.
Theorem C80_bs_param_dists : forall E runs fthetas nlabels nlims n_simulate random_seed (fresh : rst E) w out w',
    bs_param_dists runs fthetas nlabels nlims n_simulate random_seed fresh w = (Ok out, w') ->
    Forall2 (fun r d =>
      (exists rrs, length rrs = n_simulate /\ Forall (replication E r) rrs /\
         Forall2 (fun f rows => dist_rows f rrs rows) fthetas (fst d)) /\
      Forall2 (posterior_mean r) fthetas (snd d)) (rev runs) out.
Proof.
  intros E runs fs nlab nlim n rs fresh w out w' H. unfold bs_param_dists in H.
  apply wbind_Ok in H as (a1 & w1 & _ & H). apply wbind_Ok in H as (a2 & w2 & _ & H).
  apply wbind_Ok in H as (a3 & w3 & _ & H). apply wbind_Ok in H as (a4 & w6 & _ & H). apply wbind_Ok in H as (ds & w4 & Hds & H).
  apply wbind_Ok in H as (a5 & w5 & _ & H). injection H as <- _.
  apply (wmapM_inv _ _ _ _ (fun x d => shows_dists E (snd x) fs n true d)) in Hds.
  - assert (HL : map snd (rev (combine (seq 0 (length runs)) runs)) = rev runs).
    { rewrite map_rev. f_equal. clear. generalize 0%nat. induction runs as [|a l IH]; intros i; cbn; [auto|]. f_equal. apply IH. }
    rewrite <- HL. clear - Hds. induction Hds; cbn [map]; constructor; auto.
  - intros [k r] v d v' _ Hd. apply wbind_Ok in Hd as (u & v1 & _ & Hd). eapply dists_shown; eauto.
Qed.
Theorem C80_param_logx_diagram : forall E (U : uniforms E) runs fthetas o random_seed fresh w out w',
    param_logx_diagram U runs fthetas o random_seed fresh w = (Ok out, w') ->
    Forall2 (fun r p =>
      (exists rrs, length rrs = o_nsim o /\ Forall (replication E r) rrs /\
         Forall2 (fun f rows => dist_rows f rrs rows) fthetas (fst (p_dists p))) /\
      (if o_means o then Forall2 (posterior_mean r) fthetas (p_means p) /\ snd (p_dists p) = p_means p
       else p_means p = [] /\ snd (p_dists p) = [])) (rev runs) out.
Proof.
  intros E U runs fs o rs fresh w out w' H. eapply diagram_shows; [exact H|].
  intros lim st k r v p st' v' Hp. assert (Hq := Hp). apply plot_run_shows in Hp as (_ & _ & _ & Hm & (Hd1 & Hd2) & _).
  split; auto. unfold means_shown in Hm. destruct (o_means o) eqn:Ho; [|auto]. split; auto.
  clear Hm Hd1 Hd2. unfold plot_run in Hq.
  apply wbind_Ok in Hq as (x1 & v1 & _ & Hq). apply wbind_Ok in Hq as (x2 & v2 & _ & Hq).
  apply wbind_Ok in Hq as (x3 & v3 & _ & Hq). apply wbind_Ok in Hq as (x4 & v4 & _ & Hq).
  apply wbind_Ok in Hq as ([[x5 x6] x7] & v5 & _ & Hq). apply wbind_Ok in Hq as (x8 & v6 & _ & Hq). cbv zeta in Hq.
  apply wbind_Ok in Hq as (x9 & v7 & _ & Hq). apply wbind_Ok in Hq as (d & v8 & Hd & Hq).
  rewrite Ho in Hq, Hd. apply wbind_Ok in Hq as (m & v9 & Hm & Hq). injection Hq as <- _ _. cbn [p_dists p_means].
  unfold wlift in Hm. injection Hm as Hm _.
  unfold plot_bs_dists in Hd. apply wbind_Ok in Hd as (y1 & z1 & _ & Hd). apply wbind_Ok in Hd as (y2 & z2 & _ & Hd).
  apply wbind_Ok in Hd as (y3 & z3 & _ & Hd). apply wbind_Ok in Hd as (y4 & z4 & _ & Hd).
  apply wbind_Ok in Hd as (y5 & z5 & _ & Hd). apply wbind_Ok in Hd as (y6 & z6 & Hy & Hd).
  unfold wlift in Hy. injection Hy as Hy _. destruct fs; [discriminate|]. injection Hd as <- _. cbn [snd]. congruence.
Qed.

(** For a static run each replication consists of as many threads as the run
    has, drawn with replacement. *)
Theorem C80_replications : forall E r labs tmm rr, consistent r labs tmm ->
    (forall m e, ~ In (Fin m, e) tmm) ->
    (forall i j, (i < j < length (logl r))%nat -> nth i labs 0%Z = nth j labs 0%Z ->
                 (nth i (logl r) 0 < nth j (logl r) 0)%Z) ->
    replication E r rr ->
    exists inds, length inds = length tmm /\ (forall i, In i inds -> (i < length tmm)%nat) /\
      Permutation (combine (logl rr) (theta rr))
                  (flat_map (fun i => samples_of_thread r labs (Z.of_nat i)) inds) /\
      length (theta rr) = length (logl rr).
Proof.
  intros E r labs tmm rr Hc Hs Hst (ths & v0 & v1 & v2 & v3 & Ht & Hb).
  rewrite (get_run_threads_spec E r labs tmm v0 Hc) in Ht. injection Ht as <- _.
  rewrite <- (boot_given E r labs tmm) in Hb by auto.
  destruct (C25_bootstrap_static E r labs tmm BKeep v2 I Hc Hs Hst) as (Hli & Hi & rr' & Hb' & Hperm & _ & Hth & _).
  rewrite Hb' in Hb. assert (rr' = rr) by congruence. subst rr'. eexists. split; [exact Hli|]. auto.
Qed.
Print Assumptions C80_plot_bs_dists.
Print Assumptions C80_bs_param_dists.
Print Assumptions C80_param_logx_diagram.
Print Assumptions C80_replications.

Example C80_example :
    (exists out w', @bs_param_dists (script_env []) [run_other; run_short] [col0] 1 1 3 (Some 0%Z) [] (@mkW (script_env []) [7%nat] []) = (Ok out, w')) /\
    exists rr, replication (script_env []) run_other rr.
Proof.
  split.
  - destruct (C69_bs_param_dists_ok (script_env []) [run_other; run_short] [col0] 3 (Some 0%Z) [] (@mkW (script_env []) [7%nat] []))
      as (out & w' & H & _); [cbn; lia|apply short_runs|discriminate
                             |repeat constructor; apply col0_total|lia|intros z Hz; injection Hz as <-; lia|]. eauto.
  - destruct (C25_bootstrap_static (script_env []) run_other _ _ BKeep (@mkW (script_env []) [1; 1]%nat []) I
               (proj1 C25_example) (proj1 (proj2 C25_example)) (proj2 (proj2 C25_example))) as (_ & _ & rr & Hb & _).
    exists rr. rewrite (boot_given _ run_other _ _ _ _ _ (proj1 C25_example)) in Hb.
    do 5 eexists. split; [apply (get_run_threads_spec _ _ _ _ (@mkW (script_env []) [] []) (proj1 C25_example))|exact Hb].
Qed.
