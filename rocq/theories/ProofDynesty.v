(** process_dynesty_run: C13, C14. *)
From Verif Require Import Base ModelRun ModelData ProofBase ProofMonad Spec SpecRun
     ProofThreads ProofBirth ProofRun ProofProcess ProofDead ProofDict ProofComb ProofRuns ProofJoin ProofLow ProofMulti.

(** ** Columns of rows *)
Lemma zip_cols : forall ls labs dns ths, length labs = length ls -> length dns = length ls ->
    length ths = length ls ->
    map r_logl (zip_rows ls labs dns ths) = ls /\ map r_lab (zip_rows ls labs dns ths) = labs /\
    map r_dn (zip_rows ls labs dns ths) = dns /\ map r_theta (zip_rows ls labs dns ths) = ths.
Proof.
  induction ls as [|l ls IH]; intros [|b labs] [|d dns] [|t ths] H1 H2 H3; simpl in *; try discriminate; auto.
  destruct (IH labs dns ths) as (A1 & A2 & A3 & A4); auto.
  rewrite A1, A2, A3, A4. auto.
Qed.

Lemma nth_skipn : forall A (d : A) l i j, nth j (skipn i l) d = nth (i + j) l d.
Proof. induction l as [|x t IH]; intros [|i] j; simpl; auto. destruct j; auto. Qed.

(** ** -1 at the final samples *)
Lemma fold_upd_sum : forall fs acc i, NoDup fs -> (forall j, In j fs -> (j < length acc)%nat /\ nth j acc 0 = 0) ->
    zsum (firstn i (fold_left (fun acc j => upd j (-1) acc) fs acc)) =
    zsum (firstn i acc) - Z.of_nat (length (filter (fun j => (j <? i)%nat) fs)).
Proof.
  induction fs as [|j t IH]; intros acc i Hnd Hj; [simpl; lia|].
  inversion Hnd as [|? ? N1 N2]; subst. cbn [fold_left]. destruct (Hj j (or_introl eq_refl)) as [J1 J2].
  rewrite IH; auto.
  - replace (upd j (-1) acc) with (upd j (nth j acc 0 + -1) acc) by (rewrite J2; reflexivity).
    rewrite firstn_sum_upd by auto. cbn [filter]. destruct (j <? i)%nat; simpl length; lia.
  - intros k Hk. rewrite upd_length. destruct (Hj k (or_intror Hk)) as [K1 K2]. split; auto.
    rewrite nth_upd_other; auto. intros ->. auto.
Qed.
Lemma fold_upd_length : forall fs acc,
    length (fold_left (fun acc j => upd j (-1) acc) fs acc) = length acc.
Proof. induction fs as [|j t IH]; intros; simpl; auto. rewrite IH, upd_length. auto. Qed.

Lemma filter_negb_length : forall A (p : A -> bool) l,
    (length (filter p l) + length (filter (fun x => negb (p x)) l) = length l)%nat.
Proof. induction l as [|x t IH]; simpl; auto. destruct (p x); simpl; lia. Qed.

Lemma diff_sum : forall s i, (i < length s)%nat ->
    zsum (firstn i (diff s ++ [0])) = nth i s 0 - nth 0 s 0.
Proof.
  induction s as [|x t IH]; intros i Hi; [simpl in Hi; lia|].
  destruct t as [|y t'].
  - simpl in Hi. assert (i = 0)%nat by lia. subst. simpl. change (zsum []) with 0. lia.
  - destruct i as [|i]; [simpl firstn; simpl nth; change (zsum []) with 0; lia|].
    change (diff (x :: y :: t') ++ [0]) with ((y - x) :: (diff (y :: t') ++ [0])).
    cbn [firstn]. rewrite zsum_cons, IH by (simpl in *; lia). simpl nth. lia.
Qed.
Lemma diff_len : forall s, s <> [] -> length (diff s ++ [0]) = length s.
Proof.
  induction s as [|x t IH]; intros H; [congruence|]. destruct t as [|y t']; auto.
  change (diff (x :: y :: t') ++ [0]) with ((y - x) :: (diff (y :: t') ++ [0])).
  cbn [length]. rewrite IH by discriminate. auto.
Qed.

Section Dyn.
  Variables (lg ids : list Z) (ths : list (list Z)) (T : nat).
  Hypothesis Hlab : labelled lg ths ids T.

  Definition finals : list nat := map (fun lab => last (where_ (Z.eqb lab) ids) 0%nat) (zrange T).

  Lemma finals_length : length finals = T.
  Proof. unfold finals. rewrite map_length, zrange_length. auto. Qed.
  Lemma finals_last : forall k, (k < T)%nat -> last_of ids (Z.of_nat k) (nth k finals 0%nat).
  Proof.
    intros k Hk. unfold finals. rewrite (map_nth_in _ _ _ _ 0) by (rewrite zrange_length; auto).
    rewrite nth_zrange by auto. apply last_last. apply Hlab. lia.
  Qed.
  Lemma finals_lt : forall j, In j finals -> (j < length lg)%nat.
  Proof.
    intros j Hj. destruct (In_nth _ _ 0%nat Hj) as (k & Hk & <-). rewrite finals_length in Hk.
    destruct (finals_last k Hk) as [H _]. destruct Hlab as (_ & _ & He & _). lia.
  Qed.
  Lemma finals_NoDup : NoDup finals.
  Proof.
    apply (NoDup_nth _ 0%nat). intros i j Hi Hj He. rewrite finals_length in *.
    destruct (finals_last i Hi) as (_ & H1 & _). destruct (finals_last j Hj) as (_ & H2 & _).
    rewrite He in H1. lia.
  Qed.
  Lemma T_pos : (0 < T)%nat.
  Proof.
    destruct Hlab as (L1 & _ & L3 & _ & L5). destruct ids as [|x t]; [destruct lg; simpl in *; congruence|].
    assert (H : 0 <= x < Z.of_nat T) by (apply L5; left; auto). lia.
  Qed.
  (** Number of final samples before [i]. *)
  Lemma finals_count : forall i,
      (length (filter (fun j => (j <? i)%nat) finals) +
       length (filter (fun k => existsb (Z.eqb (Z.of_nat k)) (skipn i ids)) (seq 0 T)) = T)%nat.
  Proof.
    intros i.
    assert (H : length (filter (fun k => existsb (Z.eqb (Z.of_nat k)) (skipn i ids)) (seq 0 T)) =
                length (filter (fun j => negb (j <? i)%nat) finals)).
    { rewrite <- finals_length at 1.
      rewrite <- (countb_seq _ 0%nat (fun j => negb (j <? i)%nat) finals).
      f_equal. apply filter_ext_in. intros k Hk. apply in_seq in Hk. rewrite finals_length in Hk.
      destruct (finals_last k ltac:(lia)) as (F1 & F2 & F3).
      apply Bool.eq_iff_eq_true. rewrite existsb_exists, Bool.negb_true_iff, Nat.ltb_ge. split.
      - intros (x & X1 & X2). apply Z.eqb_eq in X2. subst x.
        destruct (In_nth _ _ 0 X1) as (j & J1 & J2). rewrite nth_skipn in J2. rewrite skipn_length in J1.
        destruct (le_lt_dec i (nth k finals 0%nat)) as [|Hlt]; auto.
        exfalso. apply (F3 (i + j)%nat); auto. lia.
      - intros Hle. exists (Z.of_nat k). split; [|apply Z.eqb_refl].
        rewrite <- F2. replace (nth k finals 0%nat) with (i + (nth k finals 0 - i))%nat at 1 by lia.
        rewrite <- nth_skipn. apply nth_In. rewrite skipn_length. lia. }
    rewrite H. pose proof (filter_negb_length _ (fun j => (j <? i)%nat) finals) as Hf.
    rewrite finals_length in Hf. auto.
  Qed.
  Lemma alive_pos : forall i, (i < length ids)%nat ->
      (0 < length (filter (fun k => existsb (Z.eqb (Z.of_nat k)) (skipn i ids)) (seq 0 T)))%nat.
  Proof.
    intros i Hi. set (x := nth i ids 0). assert (Hx : 0 <= x < Z.of_nat T) by (apply Hlab, nth_In; auto).
    assert (Hin : In (Z.to_nat x) (filter (fun k => existsb (Z.eqb (Z.of_nat k)) (skipn i ids)) (seq 0 T))).
    { apply filter_In. split; [apply in_seq; lia|]. apply existsb_exists. exists x.
      split; [|apply Z.eqb_eq; lia]. unfold x. rewrite <- (Nat.add_0_r i) at 1. rewrite <- nth_skipn.
      apply nth_In. rewrite skipn_length. lia. }
    destruct (filter _ (seq 0 T)); [destruct Hin|simpl; lia].
  Qed.
  Lemma alive_last : length (filter (fun k => existsb (Z.eqb (Z.of_nat k)) (skipn (length ids - 1) ids)) (seq 0 T)) = 1%nat.
  Proof.
    pose proof (alive_pos (length ids - 1)) as Hp.
    assert (Hn : (0 < length ids)%nat).
    { destruct Hlab as (L1 & _ & L3 & _). destruct lg; [congruence|simpl in *; lia]. }
    specialize (Hp ltac:(lia)).
    assert (Hs : skipn (length ids - 1) ids = [nth (length ids - 1) ids 0]).
    { apply nth_ext' with (d := 0); [rewrite skipn_length; simpl; lia|].
      intros j Hj. rewrite skipn_length in Hj. assert (j = 0)%nat by lia. subst j.
      rewrite nth_skipn, Nat.add_0_r. auto. }
    rewrite Hs in Hp |- *. set (x := nth (length ids - 1) ids 0) in *.
    assert (Hle : (length (filter (fun k => existsb (Z.eqb (Z.of_nat k)) [x]) (seq 0 T)) <= length [Z.to_nat x])%nat).
    { apply NoDup_incl_length; [apply NoDup_filter, seq_NoDup|]. intros k Hk.
      apply filter_In in Hk as [_ Hk]. simpl in Hk. rewrite Bool.orb_false_r in Hk.
      apply Z.eqb_eq in Hk. left. lia. }
    change (length [Z.to_nat x]) with 1%nat in Hle. lia.
  Qed.
  Lemma dn_sum : forall i, (i <= length lg)%nat ->
      Z.of_nat T + zsum (firstn i (fold_left (fun acc i => upd i (-1) acc) finals (repeat 0 (length lg)))) =
      Z.of_nat (length (filter (fun k => existsb (Z.eqb (Z.of_nat k)) (skipn i ids)) (seq 0 T))).
  Proof.
    intros i Hi. rewrite fold_upd_sum.
    - assert (H0 : forall m k, zsum (firstn m (repeat 0 k)) = 0).
      { unfold zsum. induction m; destruct k; simpl; auto. }
      rewrite H0. pose proof (finals_count i). lia.
    - apply finals_NoDup.
    - intros j Hj. rewrite repeat_length. split; [apply finals_lt; auto|apply nth_repeat].
  Qed.
End Dyn.

Lemma map_fst_combine : forall A B (l : list A) (m : list B), length l = length m -> map fst (combine l m) = l.
Proof. induction l; intros [|b m] H; simpl in *; try discriminate; auto. f_equal; auto. Qed.
Lemma map_snd_combine : forall A B (l : list A) (m : list B), length l = length m -> map snd (combine l m) = m.
Proof. induction l; intros [|b m] H; simpl in *; try discriminate; auto. f_equal; auto. Qed.
Lemma countb_map : forall A B (f : A -> B) p l, countb p (map f l) = countb (fun x => p (f x)) l.
Proof. induction l as [|x t IH]; simpl; auto. rewrite IH. auto. Qed.

Lemma length_pos : forall A (l : list A), l <> [] -> (0 < length l)%nat.
Proof. intros A [|x t] H; [congruence|simpl; lia]. Qed.

Section Tail.
  Variables (lg ids : list Z) (ths : list (list Z)) (T : nat).
  Hypothesis Hlab : labelled lg ths ids T.
  Variable starts : list ext.
  Hypothesis Hst : length starts = T.
  Let tmm := combine starts (map (fun i => nth i lg 0) (finals ids T)).

  Lemma ends_len : length starts = length (map (fun i => nth i lg 0) (finals ids T)).
  Proof. rewrite map_length, finals_length. auto. Qed.
  Lemma tmm_len : length tmm = T.
  Proof. unfold tmm. rewrite combine_length, <- ends_len. lia. Qed.
  Lemma tmm_fst : map fst tmm = starts.
  Proof. apply map_fst_combine, ends_len. Qed.
  Lemma tmm_snd : map snd tmm = map (fun i => nth i lg 0) (finals ids T).
  Proof. apply map_snd_combine, ends_len. Qed.
  Lemma tmm_ends : forall k, (k < T)%nat -> ends_at lg ids k (snd (nth k tmm (NInf, 0))).
  Proof.
    intros k Hk. exists (nth k (finals ids T) 0%nat). split; [eapply finals_last; eauto|].
    rewrite <- (map_nth_in _ _ snd 0 (NInf, 0) tmm k) by (rewrite tmm_len; auto).
    rewrite tmm_snd, (map_nth_in _ _ _ 0 0%nat) by (rewrite finals_length; auto). auto.
  Qed.

  Lemma dyn_consistent : forall nl, length nl = length lg -> In NInf starts ->
      (forall k f m, (k < T)%nat -> first_of ids (Z.of_nat k) f -> nth k starts NInf = Fin m ->
                     m <= nth f lg 0) ->
      consistent (mkRun lg ths nl (Some ids) (Some tmm) None None) ids tmm.
  Proof.
    intros nl Hnl Hin Hlow. split; auto. split; auto. cbn [logl theta nlive_array].
    destruct Hlab as (L1 & L2 & L3 & L4 & L5).
    assert (Hm : map (fun mm => ext_opt (fst mm)) tmm = map ext_opt starts).
    { rewrite <- tmm_fst, map_map. auto. }
    rewrite Hm. split; auto. split; auto. split; auto. split; auto.
    rewrite !map_length, tmm_len. split; auto. split; auto.
    split; [apply in_map_iff; exists NInf; auto|]. intros k Hk. split.
    - intros f m Hf. rewrite (map_nth_in _ _ ext_opt None NInf) by lia. intros He.
      apply (Hlow k f m Hk Hf). destruct (nth k starts NInf); simpl in He; congruence.
    - intros l Hl. rewrite (map_nth_in _ _ snd 0 (NInf, 0) tmm k) by (rewrite tmm_len; auto).
      destruct (tmm_ends k Hk) as (l' & L' & ->). f_equal. eapply last_unique; eauto.
  Qed.

  Let lmin := nth 0 lg 0.
  Lemma lmin_eq : min_list lg = lmin.
  Proof. apply min_list_sorted. apply Hlab. Qed.

  Definition n_low : Z := Z.of_nat (length (filter (at_or_below lmin) starts)).

  Variable dn : list Z.
  Hypothesis Hdn : length dn = length lg.
  Let rows := zip_rows lg ids dn ths.

  Lemma rows_cols : map r_logl rows = lg /\ map r_lab rows = ids /\ map r_dn rows = dn /\ map r_theta rows = ths.
  Proof. destruct Hlab as (L1 & L2 & L3 & L4 & L5). apply zip_cols; auto. Qed.
  Lemma rows_ne : rows <> [].
  Proof.
    intros H. destruct rows_cols as (R1 & _). rewrite H in R1. destruct Hlab as (L1 & _). simpl in R1. congruence.
  Qed.
  Lemma dyn_start : n_start rows tmm = n_low.
  Proof.
    unfold n_start, n_low. destruct rows_cols as (-> & _). rewrite lmin_eq, <- countb_filter.
    rewrite <- tmm_fst, countb_map. f_equal. 
  Qed.
  Lemma dyn_on : countb (fun mm => ext_eqb (fst mm) (min_list (map r_logl rows))) tmm =
                 length (filter (exactly_on lmin) starts).
  Proof.
    destruct rows_cols as (-> & _). rewrite lmin_eq, <- countb_filter.
    rewrite <- tmm_fst, countb_map. auto.
  Qed.

  Lemma dyn_tail : forall E (w : world E), (length (filter (exactly_on lmin) starts) <= 1)%nat ->
      0 < n_low -> (forall x, In x (nl_of n_low dn) -> 1 <= x) -> last (nl_of n_low dn) 0 = 1 ->
      In NInf starts ->
      (forall k f m, (k < T)%nat -> first_of ids (Z.of_nat k) f -> nth k starts NInf = Fin m ->
                     m <= nth f lg 0) ->
      (let* r := dict_given_run_array rows tmm in
       let* _ := check_ns_run r false false in wret r) w =
      (Ok (mkRun lg ths (nl_of n_low dn) (Some ids) (Some tmm) None None), w).
  Proof.
    intros E w Hon Hn0 Hpos Hlast Hin Hlow.
    rewrite <- dyn_on in Hon.
    pose proof (dict_run E rows tmm w rows_ne Hon) as Hd. rewrite dyn_start in Hd.
    destruct rows_cols as (R1 & R2 & R3 & R4). rewrite R1, R2, R3, R4 in Hd.
    assert (Hnl : length (nl_of n_low dn) = length lg) by (rewrite nl_of_length; auto).
    assert (Hmin : 0 < min_list (nl_of n_low dn)).
    { destruct (min_list_spec (nl_of n_low dn)) as [M1 _].
      - intros He. rewrite He in Hnl. pose proof (length_pos _ lg (proj1 Hlab)). simpl in Hnl. lia.
      - specialize (Hpos _ M1). lia. }
    apply Z.ltb_lt in Hn0. apply Z.ltb_lt in Hmin. apply Z.eqb_eq in Hlast.
    rewrite Hn0, Hmin, Hlast in Hd. cbn [andb] in Hd.
    rewrite (wbind_run _ _ _ _ _ _ _ _ Hd).
    destruct (check_ns_run_accepts E (mkRun lg ths (nl_of n_low dn) (Some ids) (Some tmm) None None) false false w)
      as (w' & C1 & _ & C3).
    - split; auto. exists ids, tmm. apply dyn_consistent; auto.
    - discriminate.
    - rewrite (wbind_run _ _ _ _ _ _ _ _ C1). rewrite C3 by auto. reflexivity.
  Qed.

  (** Some thread starts above the lowest logl, and dn counts only the ends. *)
  Lemma dyn_tail_fails : forall E (w : world E), (length (filter (exactly_on lmin) starts) <= 1)%nat ->
      (exists m, In (Fin m) starts /\ lmin < m) ->
      Z.of_nat T + zsum (firstn (length lg - 1) dn) = 1 ->
      dict_given_run_array rows tmm w = (Raise AssertionError, w).
  Proof.
    intros E w Hon (m & M1 & M2) Hsum.
    rewrite <- dyn_on in Hon. rewrite (dict_run E rows tmm w rows_ne Hon), dyn_start.
    destruct rows_cols as (_ & _ & -> & _).
    assert (Hlt : n_low < Z.of_nat T).
    { unfold n_low. rewrite <- Hst.
      rewrite <- (filter_negb_length _ (at_or_below lmin) starts).
      assert (Hx : In (Fin m) (filter (fun x => negb (at_or_below lmin x)) starts)).
      { apply filter_In. split; auto. simpl. apply Bool.negb_true_iff, Z.leb_gt. auto. }
      destruct (filter (fun x => negb (at_or_below lmin x)) starts); [destruct Hx|simpl length; lia]. }
    assert (Hne : (0 < length lg)%nat) by (apply length_pos; apply Hlab).
    assert (Hlast : last (nl_of n_low dn) 0 = n_low + zsum (firstn (length lg - 1) dn)).
    { rewrite last_nth. rewrite nl_of_length. unfold nl_of.
      rewrite nth_map_seq by lia. rewrite Hdn. auto. }
    replace (last (nl_of n_low dn) 0 =? 1) with false by (symmetry; apply Z.eqb_neq; lia).
    rewrite Bool.andb_false_r. auto.
  Qed.
End Tail.

Lemma wassert_run : forall E b (w : world E), b = true -> wassert b w = (Ok tt, w).
Proof. intros E b w ->. reflexivity. Qed.

Lemma uniq_labels : forall lg ths ids T, labelled lg ths ids T -> unique ids = zrange T.
Proof. intros lg ths ids T H. apply unique_zrange. apply H. Qed.

Lemma fill_exact : forall A n (l : list A), length l = n -> fill_slice n l = Ok l.
Proof. intros A n l <-. unfold fill_slice. rewrite Nat.eqb_refl. reflexivity. Qed.

Lemma lift_run : forall E A (m : res A) x (w : world E), m = Ok x -> wlift m w = (Ok x, w).
Proof. intros E A m x w ->. reflexivity. Qed.

Lemma at_ix_lt : forall A (d : A) l i, (i < length l)%nat -> at_ix l i = Ok (nth i l d).
Proof. intros A d l i Hi. unfold at_ix. rewrite (nth_error_nth' l d Hi). reflexivity. Qed.

Lemma mapM_map : forall A B (f : A -> res B) g l, (forall x, In x l -> f x = Ok (g x)) -> mapM f l = Ok (map g l).
Proof.
  induction l as [|x t IH]; intros H; [reflexivity|]. cbn [mapM map]. rewrite (H x) by (left; auto). cbn [rbind].
  rewrite IH by (intros; apply H; right; auto). reflexivity.
Qed.

Lemma dyn_ends : forall lg ths ids T (sn : option (list Z)), labelled lg ths ids T ->
    mapM (fun i => let! z := at_ix lg i in
                   match sn with Some _ => Ok z | None => let! _ := at_ix ths i in Ok z end) (finals ids T) =
    Ok (map (fun i => nth i lg 0) (finals ids T)).
Proof.
  intros lg ths ids T sn Hlab. apply mapM_map. intros i Hi.
  pose proof (finals_lt _ _ _ _ Hlab i Hi) as Hl. rewrite (at_ix_lt _ 0) by auto. cbn [rbind].
  destruct sn; auto. destruct Hlab as (_ & L2 & _). rewrite (at_ix_lt _ []) by (rewrite L2; auto). reflexivity.
Qed.

(** ** C13 *)
Theorem dyn_static : forall E d nl (w : world E),
    labelled (d_logl d) (d_samples d) (d_id d) nl -> d_nlive d = Some nl ->
    (forall k, 0 <= k < Z.of_nat nl -> In k (skipn (length (d_id d) - nl) (d_id d))) ->
    let tmm := map (fun j => (NInf, nth j (d_logl d) 0)) (finals (d_id d) nl) in
    process_dynesty_run d w =
    (Ok (mkRun (d_logl d) (d_samples d)
           (map (fun i => Z.of_nat (length (filter (fun k => existsb (Z.eqb (Z.of_nat k)) (skipn i (d_id d))) (seq 0 nl))))
                (seq 0 (length (d_logl d))))
           (Some (d_id d)) (Some tmm) None None), w).
Proof.
  intros E d nl w Hlab Hnl Hend. cbv zeta. pose proof Hlab as (L1 & L2 & L3 & L4 & L5).
  unfold process_dynesty_run. rewrite (uniq_labels _ _ _ _ Hlab), zrange_length, Hnl. cbv zeta.
  rewrite (wbind_run _ _ _ _ _ _ _ _ (lift_run E _ _ _ w (fill_exact _ _ (d_logl d) (eq_sym L2)))).
  rewrite (wbind_run _ _ _ _ _ _ _ _ (lift_run E _ _ _ w (fill_exact _ _ (d_id d) (eq_trans L3 (eq_sym L2))))).
  rewrite (wbind_run _ _ _ _ _ _ _ _ (wassert_run E _ w (proj2 (list_eqb_eq _ _) eq_refl))).
  pose proof (T_pos _ _ _ _ Hlab) as HT.
  assert (Hu : unique (last_k nl (d_id d)) = zrange nl).
  { apply unique_zrange. intros x. unfold last_k.
    replace (nl =? 0)%nat with false by (symmetry; apply Nat.eqb_neq; lia).
    split; [|apply Hend]. intros Hin. apply L5. rewrite <- (firstn_skipn (length (d_id d) - nl) (d_id d)).
    apply in_or_app. auto. }
  assert (Hst : (let* _ := wassert (nl =? nl)%nat in
       let* _ := wassert (list_eqb (unique (last_k nl (d_id d))) (zrange nl)) in
       wret (repeat NInf nl, @None (list Z))) w = (Ok (repeat NInf nl, None), w)).
  { rewrite (wbind_run _ _ _ _ _ _ _ _ (wassert_run E _ w (Nat.eqb_refl nl))).
    rewrite (wbind_run _ _ _ _ _ _ _ _ (wassert_run E _ w (proj2 (list_eqb_eq _ _) Hu))). reflexivity. }
  rewrite (wbind_run _ _ _ _ _ _ _ _ Hst).
  fold (finals (d_id d) nl).
  rewrite (wbind_run _ _ _ _ _ _ _ _ (lift_run E _ _ _ w (dyn_ends _ _ _ _ None Hlab))). rewrite L2.
  set (dn := fold_left _ _ _).
  assert (Hdl : length dn = length (d_logl d)) by (unfold dn; rewrite fold_upd_length, repeat_length; auto).
  assert (Hlow : n_low (d_logl d) (repeat NInf nl) = Z.of_nat nl).
  { unfold n_low. f_equal. clear. induction nl; simpl; auto. }
  assert (Hnln : nl_of (Z.of_nat nl) dn =
     map (fun i => Z.of_nat (length (filter (fun k => existsb (Z.eqb (Z.of_nat k)) (skipn i (d_id d))) (seq 0 nl))))
         (seq 0 (length (d_logl d)))).
  { unfold nl_of. rewrite Hdl. apply map_ext_in. intros i Hi. apply in_seq in Hi.
    eapply dn_sum; eauto. lia. }
  rewrite (dyn_tail (d_logl d) (d_id d) (d_samples d) nl Hlab (repeat NInf nl) (repeat_length _ _) dn Hdl).
  - rewrite Hlow, Hnln. do 4 f_equal. f_equal.
    apply nth_ext' with (d := (NInf, 0)).
    + rewrite combine_length, repeat_length, !map_length, finals_length. lia.
    + intros k Hk. rewrite combine_length, repeat_length, !map_length, finals_length in Hk.
      rewrite combine_nth by (rewrite repeat_length, map_length, finals_length; auto).
      rewrite nth_repeat, !(map_nth_in _ _ _ _ 0%nat) by (rewrite finals_length; lia). auto.
  - assert (Hz : length (filter (exactly_on (nth 0 (d_logl d) 0)) (repeat NInf nl)) = 0%nat) by (clear; induction nl; simpl; auto).
    rewrite Hz. lia.
  - rewrite Hlow. lia.
  - rewrite Hlow, Hnln. intros x Hx. apply in_map_iff in Hx as (i & <- & Hi). apply in_seq in Hi.
    pose proof (alive_pos _ _ _ _ Hlab i ltac:(lia)). lia.
  - rewrite Hlow, Hnln, last_nth, map_length, seq_length.
    assert (0 < length (d_logl d))%nat by (destruct (d_logl d); [congruence|simpl; lia]).
    rewrite nth_map_seq by lia. rewrite <- L3. rewrite (alive_last _ _ _ _ Hlab). auto.
  - destruct nl; [lia|]. left. auto.
  - intros k f m Hk _. rewrite nth_repeat. discriminate.
Qed.

(** ** C14 *)
Section Dynamic.
  Variables (d : dynesty) (T : nat) (starts : list ext).
  Hypothesis Hlab : labelled (d_logl d) (d_samples d) (d_id d) T.
  Hypothesis Hnl : d_nlive d = None.
  Hypothesis Hsum : fold_right Z.add 0 (d_batch_nlive d) = Z.of_nat T.
  Hypothesis Hst : batch_starts (d_id d) (d_samples_batch d) (d_batch_bounds d) T starts.
  Let tmm := combine starts (map (fun i => nth i (d_logl d) 0) (finals (d_id d) T)).

  Lemma dyn_form : forall E (w : world E),
      (forall s, d_samples_n d = Some s -> length s = length (d_logl d)) ->
      process_dynesty_run d w =
      (let* r := dict_given_run_array (zip_rows (d_logl d) (d_id d)
                   (match d_samples_n d with
                    | Some s => diff s ++ [0]
                    | None => fold_left (fun acc i => upd i (-1) acc) (finals (d_id d) T) (repeat 0 (length (d_logl d)))
                    end) (d_samples d)) tmm in
       let* _ := check_ns_run r false false in wret r) w.
  Proof.
    intros E w Hsn. pose proof Hlab as (L1 & L2 & L3 & L4 & L5).
    unfold process_dynesty_run. rewrite (uniq_labels _ _ _ _ Hlab), zrange_length, Hnl. cbv zeta.
    rewrite (wbind_run _ _ _ _ _ _ _ _ (lift_run E _ _ _ w (fill_exact _ _ (d_logl d) (eq_sym L2)))).
    rewrite (wbind_run _ _ _ _ _ _ _ _ (lift_run E _ _ _ w (fill_exact _ _ (d_id d) (eq_trans L3 (eq_sym L2))))).
    rewrite (wbind_run _ _ _ _ _ _ _ _ (wassert_run E _ w (proj2 (list_eqb_eq _ _) eq_refl))).
    match goal with |- wbind ?m ?f w = _ => assert (Hm : m w = (Ok (starts, option_map diff (d_samples_n d)), w)) end.
    { rewrite (wbind_run _ _ _ _ _ _ _ _ (wassert_run E _ w (proj2 (Z.eqb_eq _ _) (eq_sym Hsum)))).
      match goal with |- wbind ?m ?f w = _ => assert (Hd : m w = (Ok (option_map diff (d_samples_n d)), w)) end.
      { destruct (d_samples_n d) as [s|] eqn:Hs; [|reflexivity].
        rewrite (wbind_run _ _ _ _ _ _ _ _ (lift_run E _ _ _ w (fill_exact _ (length (d_samples d) - 1) (diff s) ltac:(
          pose proof (Hsn s eq_refl) as Hl; assert (s <> []) by (intros ->; destruct (d_logl d); simpl in *; congruence);
          pose proof (diff_len s ltac:(auto)) as Hd; rewrite app_length in Hd; cbn [length] in Hd; rewrite L2; lia)))).
        reflexivity. }
      rewrite (wbind_run _ _ _ _ _ _ _ _ Hd). clear Hd.
      match goal with |- wbind ?m ?f w = _ => assert (Hd : m w = (Ok starts, w)) end.
      { apply lift_run. destruct Hst as [S1 S2]. rewrite (mapM_map _ _ _ (fun z => nth (Z.to_nat z) starts NInf)).
        - f_equal. apply nth_ext' with (d := NInf); [rewrite map_length, zrange_length; auto|].
          intros k Hk. rewrite map_length, zrange_length in Hk.
          rewrite (map_nth_in _ _ _ _ 0) by (rewrite zrange_length; auto). rewrite nth_zrange by auto.
          rewrite Nat2Z.id. reflexivity.
        - intros z Hz. apply in_zrange in Hz.
          destruct (S2 (Z.to_nat z) (hd 0%nat (where_ (Z.eqb z) (d_id d))) ltac:(lia)) as (b & B1 & B2).
          + rewrite Z2Nat.id by lia. apply hd_first. apply L5. lia.
          + cbv zeta. unfold at_ix. rewrite B1. cbn [rbind]. rewrite B2.
            rewrite (nth_error_nth' starts NInf) by lia. reflexivity. }
      rewrite (wbind_run _ _ _ _ _ _ _ _ Hd). reflexivity. }
    rewrite (wbind_run _ _ _ _ _ _ _ _ Hm). fold (finals (d_id d) T).
    rewrite (wbind_run _ _ _ _ _ _ _ _ (lift_run E _ _ _ w (dyn_ends _ _ _ _ _ Hlab))). rewrite L2.
    destruct (d_samples_n d); reflexivity.
  Qed.

  Theorem dyn_no_samples_n : forall E (w : world E), d_samples_n d = None ->
      (length (filter (exactly_on (nth 0 (d_logl d) 0%Z)) starts) <= 1)%nat ->
      (exists m, In (Fin m) starts /\ nth 0 (d_logl d) 0 < m) ->
      process_dynesty_run d w = (Raise AssertionError, w).
  Proof.
    intros E w Hs Hon Hm. rewrite dyn_form, Hs by (rewrite Hs; discriminate).
    apply wbind_raise.
    destruct Hst as [S1 _].
    apply (dyn_tail_fails _ _ _ T Hlab starts S1); auto.
    - rewrite fold_upd_length, repeat_length. auto.
    - rewrite (dn_sum _ _ _ _ Hlab) by lia.
      pose proof (alive_last _ _ _ _ Hlab) as Ha. destruct Hlab as (_ & _ & L3 & _).
      rewrite L3 in Ha. rewrite Ha. auto.
  Qed.

  Theorem dyn_samples_n : forall E (w : world E) s, d_samples_n d = Some s ->
      length s = length (d_logl d) ->
      (length (filter (exactly_on (nth 0 (d_logl d) 0%Z)) starts) <= 1)%nat ->
      nth 0 s 0 = Z.of_nat (length (filter (at_or_below (nth 0 (d_logl d) 0)) starts)) ->
      (forall x, In x s -> 1 <= x) -> last s 0 = 1 -> In NInf starts ->
      (forall k f m, (k < T)%nat -> first_of (d_id d) (Z.of_nat k) f -> nth k starts NInf = Fin m ->
                     m <= nth f (d_logl d) 0) ->
      process_dynesty_run d w =
      (Ok (mkRun (d_logl d) (d_samples d) s (Some (d_id d)) (Some tmm) None None), w).
  Proof.
    intros E w s Hs Hlen Hon H0 Hpos Hlast Hin Hlow. rewrite dyn_form, Hs by (rewrite Hs; injection 1 as <-; auto).
    destruct Hst as [S1 _].
    assert (Hne : s <> []) by (intros ->; destruct Hlab as (L1 & _); destruct (d_logl d); simpl in *; congruence).
    assert (Hdl : length (diff s ++ [0]) = length (d_logl d)) by (rewrite diff_len; auto).
    assert (Hsl : (0 < length s)%nat) by (destruct s; [congruence|simpl; lia]).
    assert (Hnl' : nl_of (n_low (d_logl d) starts) (diff s ++ [0]) = s).
    { unfold nl_of. rewrite Hdl, <- Hlen. apply nth_ext' with (d := 0); [rewrite map_length, seq_length; auto|].
      intros i Hi. rewrite map_length, seq_length in Hi. rewrite nth_map_seq by auto.
      rewrite diff_sum by auto. unfold n_low. rewrite <- H0. lia. }
    rewrite (dyn_tail _ _ _ T Hlab starts S1 (diff s ++ [0]) Hdl); auto.
    - rewrite Hnl'. reflexivity.
    - unfold n_low. rewrite <- H0. specialize (Hpos (nth 0 s 0) ltac:(apply nth_In; auto)). lia.
    - rewrite Hnl'. auto.
    - rewrite Hnl'. auto.
  Qed.
End Dynamic.

Theorem dyn_positive : forall E d (w : world E) r w', process_dynesty_run d w = (Ok r, w') ->
    (forall x, In x (nlive_array r) -> 1 <= x) /\ nlive_array r <> [] /\ last (nlive_array r) 0 = 1.
Proof.
  intros E d w r w' H. unfold process_dynesty_run in H. cbv zeta in H.
  apply wbind_Ok in H as (u0 & w0 & _ & H). apply wbind_Ok in H as (u00 & w00 & _ & H).
  apply wbind_Ok in H as (u & w1 & _ & H). apply wbind_Ok in H as ([st sn] & w2 & _ & H).
  apply wbind_Ok in H as (u02 & w02 & _ & H). apply wbind_Ok in H as (r2 & w3 & H3 & H). apply wbind_Ok in H as (u4 & w4 & _ & H).
  injection H as <- <-. eapply dict_positive; eauto.
Qed.
