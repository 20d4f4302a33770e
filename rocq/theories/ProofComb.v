(** Rows and threads: the invariants behind combining runs and threads. *)
From Verif Require Import Base ModelRun ModelData ProofBase ProofMonad Spec SpecRun
     ProofThreads ProofBirth ProofRun ProofProcess ProofDict.

Notation tm tmm k := (nth k tmm (NInf, 0%Z)).

(** Every row is inside the interval of its thread; every thread has a row at
    its end. *)
Definition tspec (rows : list row) (tmm : list (ext * Z)) : Prop :=
  (forall x, In x rows -> exists k, (k < length tmm)%nat /\ r_lab x = Z.of_nat k /\
     starts_below (fst (tm tmm k)) (r_logl x) = true /\ r_logl x <= snd (tm tmm k)) /\
  (forall k, (k < length tmm)%nat ->
     exists x, In x rows /\ r_lab x = Z.of_nat k /\ r_logl x = snd (tm tmm k)).

Definition same_labs (a b : list row) : Prop :=
  Permutation (map (fun x => (r_logl x, r_lab x)) a) (map (fun x => (r_logl x, r_lab x)) b).

Lemma tspec_same : forall a b tmm, same_labs a b -> tspec a tmm -> tspec b tmm.
Proof.
  intros a b tmm Hs [H1 H2]. unfold same_labs in Hs. split.
  - intros x Hx. assert (Hi : In (r_logl x, r_lab x) (map (fun y => (r_logl y, r_lab y)) a)).
    { apply (Permutation_in _ (Permutation_sym Hs)). apply in_map_iff. eauto. }
    apply in_map_iff in Hi as [y [Hy Hin]]. injection Hy as E1 E2. destruct (H1 y Hin) as (k & K1 & K2 & K3 & K4).
    exists k. rewrite <- E1, <- E2. auto.
  - intros k Hk. destruct (H2 k Hk) as (y & Hin & Y1 & Y2).
    assert (Hi : In (r_logl y, r_lab y) (map (fun y => (r_logl y, r_lab y)) b)).
    { apply (Permutation_in _ Hs). apply in_map_iff. eauto. }
    apply in_map_iff in Hi as [x [Hx Hinx]]. injection Hx as E1 E2. exists x. split; auto. split; congruence.
Qed.
Lemma tspec_perm : forall a b tmm, Permutation a b -> tspec a tmm -> tspec b tmm.
Proof.
  intros a b tmm Hp [H1 H2]. split.
  - intros x Hx. apply H1. eapply Permutation_in; [symmetry|]; eauto.
  - intros k Hk. destruct (H2 k Hk) as (x & Hx & H). exists x. split; auto.
    eapply Permutation_in; eauto.
Qed.

Definition shift_row (t : Z) (x : row) : row := mkRow (r_logl x) (t + r_lab x) (r_dn x) (r_theta x).

Lemma tspec_app : forall a b s t, tspec a s -> tspec b t ->
    tspec (a ++ map (shift_row (Z.of_nat (length s))) b) (s ++ t).
Proof.
  intros a b s t [A1 A2] [B1 B2]. split.
  - intros x Hx. apply in_app_iff in Hx as [Hx|Hx].
    + destruct (A1 x Hx) as (k & K1 & K2 & K3 & K4). exists k. rewrite app_length.
      rewrite app_nth1 by auto. split; [lia|auto].
    + apply in_map_iff in Hx as [y [<- Hy]]. destruct (B1 y Hy) as (k & K1 & K2 & K3 & K4).
      exists (length s + k)%nat. rewrite app_length, app_nth2 by lia.
      replace (length s + k - length s)%nat with k by lia. simpl. split; [lia|]. split; [lia|auto].
  - intros k Hk. rewrite app_length in Hk. destruct (Nat.lt_ge_cases k (length s)) as [Hl|Hl].
    + destruct (A2 k Hl) as (x & X1 & X2 & X3). exists x. rewrite app_nth1 by auto.
      split; [apply in_app_iff; auto|auto].
    + destruct (B2 (k - length s)%nat ltac:(lia)) as (x & X1 & X2 & X3).
      exists (shift_row (Z.of_nat (length s)) x). rewrite app_nth2 by lia.
      split; [apply in_app_iff; right; apply in_map; auto|]. simpl. split; [lia|auto].
Qed.
Lemma dsum_shift : forall x t rows, dsum x (map (shift_row t) rows) = dsum x rows.
Proof.
  intros. unfold dsum. induction rows as [|y l IH]; auto. cbn [map filter].
  change (r_logl (shift_row t y)) with (r_logl y).
  destruct (r_logl y <? x); auto. cbn [map]. rewrite !zsum_cons, IH. auto.
Qed.

Lemma sb_trans : forall e x y, starts_below e x = true -> x <= y -> starts_below e y = true.
Proof. intros [|z] x y H Hxy; simpl in *; auto. rewrite Z.ltb_lt in *. lia. Qed.

Lemma in_nth_row : forall x rows, In x rows -> exists i, (i < length rows)%nat /\ nth i rows row0 = x.
Proof. intros. apply In_nth; auto. Qed.
Lemma nth_logl : forall rows i, (i < length rows)%nat ->
    nth i (map r_logl rows) 0 = r_logl (nth i rows row0).
Proof. intros. rewrite (map_nth_in _ _ _ 0 row0) by auto. auto. Qed.
Lemma nth_lab : forall rows i, (i < length rows)%nat ->
    nth i (map r_lab rows) 0 = r_lab (nth i rows row0).
Proof. intros. rewrite (map_nth_in _ _ _ 0 row0) by auto. auto. Qed.

Lemma rows_le : forall rows i j, StronglySorted Z.le (map r_logl rows) -> (i <= j < length rows)%nat ->
    r_logl (nth i rows row0) <= r_logl (nth j rows row0).
Proof.
  intros rows i j Hs Hij. rewrite <- !nth_logl by lia. apply ssorted_le_nth_le; auto.
  rewrite map_length. auto.
Qed.

Lemma tspec_columns : forall rows tmm, tspec rows tmm -> StronglySorted Z.le (map r_logl rows) ->
    In NInf (map fst tmm) ->
    valid_columns (map r_logl rows) (length rows) (length rows) (map r_lab rows)
                  (map (fun mm => ext_opt (fst mm)) tmm) (map snd tmm).
Proof.
  intros rows tmm [H1 H2] Hs Hn. unfold valid_columns. rewrite !map_length.
  split; [auto|]. split; [auto|]. split; [auto|]. split; [auto|]. split; [auto|].
  split; [|split].
  - intros x. split; intros Hx.
    + apply in_map_iff in Hx as [y [<- Hy]]. destruct (H1 y Hy) as (k & K1 & K2 & _). lia.
    + destruct (H2 (Z.to_nat x) ltac:(lia)) as (y & Y1 & Y2 & _). apply in_map_iff.
      exists y. split; auto. lia.
  - apply in_map_iff in Hn as [mm [M1 M2]]. apply in_map_iff. exists mm. rewrite M1. auto.
  - intros k Hk. split.
    + intros f m (F1 & F2 & _) Hm. rewrite map_length in F1.
      rewrite nth_logl, nth_lab in * by auto.
      destruct (H1 (nth f rows row0)) as (k' & K1 & K2 & K3 & _); [apply nth_In; auto|].
      assert (k' = k) by lia. subst k'.
      rewrite (map_nth_in _ _ _ None (NInf, 0)) in Hm by auto.
      destruct (fst (tm tmm k)) as [|z]; simpl in *; [discriminate|]. inversion Hm; subst.
      apply Z.ltb_lt in K3. lia.
    + intros l (L1 & L2 & L3). rewrite map_length in L1, L3.
      rewrite (map_nth_in _ _ _ 0 (NInf, 0)) by auto. rewrite nth_logl, nth_lab in * by auto.
      destruct (H1 (nth l rows row0)) as (k' & K1 & K2 & _ & K4); [apply nth_In; auto|].
      assert (k' = k) by lia. subst k'.
      destruct (H2 k Hk) as (y & Y1 & Y2 & Y3). destruct (in_nth_row _ _ Y1) as (j & J1 & J2).
      destruct (Nat.le_gt_cases j l) as [Hjl|Hjl].
      * pose proof (rows_le rows j l Hs ltac:(auto)) as Hle. rewrite J2 in Hle. lia.
      * exfalso. apply (L3 j); [lia|]. rewrite nth_lab by auto. rewrite J2. auto.
Qed.

(** ** Counting threads *)
Lemma live_pos : forall rows tmm x, tspec rows tmm -> In x rows -> (1 <= live_at tmm (r_logl x))%nat.
Proof.
  intros rows tmm x [H1 _] Hx. destruct (H1 x Hx) as (k & K1 & K2 & K3 & K4). unfold live_at.
  assert (Hin : In (tm tmm k) (filter (covers (r_logl x)) tmm)).
  { apply filter_In. split; [apply nth_In; auto|]. unfold covers. rewrite K3. simpl.
    apply Z.leb_le. auto. }
  destruct (filter (covers (r_logl x)) tmm); [destruct Hin|simpl; lia].
Qed.

Lemma count_one : forall A (d : A) (p : A -> bool) l k, (k < length l)%nat -> p (nth k l d) = true ->
    (forall j, (j < length l)%nat -> p (nth j l d) = true -> j = k) -> length (filter p l) = 1%nat.
Proof.
  intros A d p l k Hk Hp Hu.
  assert (Hw : where_ p l = [k]).
  { pose proof (where_NoDup A p l) as Hnd. pose proof (fun i => in_where A p d l i) as Hi.
    assert (Hall : forall i, In i (where_ p l) -> i = k).
    { intros i H. apply Hi in H as [H1 H2]. apply Hu; auto. }
    assert (Hink : In k (where_ p l)) by (apply Hi; auto).
    destruct (where_ p l) as [|a [|b t]]; [destruct Hink| |].
    - destruct Hink as [->|[]]. auto.
    - exfalso. rewrite (Hall a), (Hall b) in Hnd by (simpl; auto). inversion Hnd; subst.
      apply H1. left; auto. }
  rewrite <- countb_filter, <- where_length, Hw. auto.
Qed.

Lemma NoDup_logl_inj : forall rows x y, NoDup (map r_logl rows) -> In x rows -> In y rows ->
    r_logl x = r_logl y -> x = y.
Proof.
  intros rows x y Hnd Hx Hy He. destruct (in_nth_row _ _ Hx) as (i & I1 & I2).
  destruct (in_nth_row _ _ Hy) as (j & J1 & J2).
  assert (i = j).
  { apply (proj1 (NoDup_nth (map r_logl rows) 0) Hnd); rewrite ?map_length; auto.
    rewrite !nth_logl by auto. congruence. }
  congruence.
Qed.

Lemma live_max : forall rows tmm x, tspec rows tmm -> NoDup (map r_logl rows) ->
    In x rows -> (forall y, In y rows -> r_logl y <= r_logl x) -> live_at tmm (r_logl x) = 1%nat.
Proof.
  intros rows tmm x [H1 H2] Hnd Hx Hmax. destruct (H1 x Hx) as (k & K1 & K2 & K3 & K4).
  unfold live_at. apply (count_one _ (NInf, 0) _ _ k); auto.
  - unfold covers. rewrite K3. simpl. apply Z.leb_le. auto.
  - intros j Hj Hc. unfold covers in Hc. apply andb_true_iff in Hc as [_ Hc]. apply Z.leb_le in Hc.
    destruct (H2 j Hj) as (y & Y1 & Y2 & Y3). specialize (Hmax y Y1).
    assert (y = x) by (apply (NoDup_logl_inj rows); auto; lia). subst y. lia.
Qed.

Lemma tspec_span : forall rows tmm mm, tspec rows tmm -> In mm tmm ->
    starts_below (fst mm) (snd mm) = true.
Proof.
  intros rows tmm mm [H1 H2] Hin. destruct (In_nth _ _ (NInf, 0) Hin) as (k & Hk & <-).
  destruct (H2 k Hk) as (x & X1 & X2 & X3). destruct (H1 x X1) as (k' & K1 & K2 & K3 & K4).
  assert (k' = k) by lia. subst k'. rewrite <- X3. auto.
Qed.

(** ** dict_given_run_array on a complete set of rows *)
Lemma sorted_rows : forall rows, StronglySorted Z.le (map r_logl rows) ->
    StronglySorted (fun a b => r_logl a <= r_logl b) rows.
Proof. intros rows H. rewrite ssorted_map in H. exact H. Qed.

Lemma sorted_NoDup_lt : forall rows i j, StronglySorted Z.le (map r_logl rows) ->
    NoDup (map r_logl rows) -> (j < i)%nat -> (i < length rows)%nat ->
    r_logl (nth j rows row0) < r_logl (nth i rows row0).
Proof.
  intros rows i j Hs Hnd Hj Hi.
  pose proof (rows_le rows j i Hs ltac:(lia)) as Hle.
  assert (r_logl (nth j rows row0) <> r_logl (nth i rows row0)); [|lia].
  intros He. assert (j = i); [|lia].
  apply (proj1 (NoDup_nth (map r_logl rows) 0) Hnd); rewrite ?map_length; try lia.
  rewrite !nth_logl by lia. auto.
Qed.

Lemma min_first : forall rows, StronglySorted Z.le (map r_logl rows) -> rows <> [] ->
    min_list (map r_logl rows) = r_logl (nth 0 rows row0).
Proof.
  intros rows Hs Hne. rewrite min_list_sorted by auto. apply nth_logl. destruct rows; [congruence|simpl; lia].
Qed.

Lemma some_ninf : forall rows tmm, tspec rows tmm -> rows <> [] ->
    starts_above tmm (min_list (map r_logl rows)) -> In NInf (map fst tmm).
Proof.
  intros rows tmm [H1 _] Hne Hsa.
  destruct (min_list_spec (map r_logl rows)) as [Hin Hmin].
  { intros H; apply map_eq_nil in H; auto. }
  apply in_map_iff in Hin as [x [Hx Hin]]. destruct (H1 x Hin) as (k & K1 & K2 & K3 & K4).
  destruct (tm tmm k) as [[|z] e] eqn:Hk.
  - apply in_map_iff. exists (NInf, e). split; auto. rewrite <- Hk. apply nth_In; auto.
  - exfalso. specialize (Hsa z e). rewrite <- Hk in Hsa. specialize (Hsa (nth_In _ _ K1)).
    simpl in K3. apply Z.ltb_lt in K3. lia.
Qed.

Lemma nl_of_length : forall n0 dns, length (nl_of n0 dns) = length dns.
Proof. intros. unfold nl_of. rewrite map_length, seq_length. auto. Qed.

(** The value at the first row of each group of tied logls. *)
Lemma nl_live : forall rows tmm i, StronglySorted Z.le (map r_logl rows) -> tspec rows tmm ->
    balanced rows tmm -> starts_above tmm (min_list (map r_logl rows)) -> (i < length rows)%nat ->
    (forall j, (j < i)%nat -> r_logl (nth j rows row0) < r_logl (nth i rows row0)) ->
    nth i (nl_of (n_start rows tmm) (map r_dn rows)) 0 =
    Z.of_nat (live_at tmm (r_logl (nth i rows row0))).
Proof.
  intros rows tmm i Hs Ht Hb Hsa Hi Hf.
  rewrite (nl_nth _ rows i) by (auto using sorted_rows).
  rewrite Hb, bal_live by (intros; eapply tspec_span; eauto).
  destruct (n_start_ninf rows tmm Hsa) as [-> _]. lia.
Qed.

Theorem dict_complete : forall E rows tmm (w : world E), rows <> [] ->
    StronglySorted Z.le (map r_logl rows) -> NoDup (map r_logl rows) ->
    tspec rows tmm -> balanced rows tmm -> starts_above tmm (min_list (map r_logl rows)) ->
    dict_given_run_array rows tmm w =
    (Ok (mkRun (map r_logl rows) (map r_theta rows)
               (map (fun x => Z.of_nat (live_at tmm x)) (map r_logl rows))
               (Some (map r_lab rows)) (Some tmm) None None), w).
Proof.
  intros E rows tmm w Hne Hs Hnd Ht Hb Hsa.
  destruct (n_start_ninf rows tmm Hsa) as [Hn0 Hdup].
  rewrite dict_run by (auto; lia).
  assert (Hnl : nl_of (n_start rows tmm) (map r_dn rows) =
                map (fun x => Z.of_nat (live_at tmm x)) (map r_logl rows)).
  { apply nth_ext' with (d := 0).
    - rewrite nl_of_length, !map_length. auto.
    - rewrite nl_of_length, map_length. intros i Hi.
      rewrite nl_live by (auto; intros; apply sorted_NoDup_lt; auto).
      rewrite (map_nth_in _ _ _ 0 0) by (rewrite map_length; auto). rewrite nth_logl by auto. auto. }
  rewrite Hnl.
  assert (Hpos : 0 < n_start rows tmm).
  { rewrite Hn0. pose proof (some_ninf rows tmm Ht Hne Hsa) as Hin.
    apply in_map_iff in Hin as [mm [M1 M2]].
    assert (0 < countb (fun mm => is_ninf (fst mm)) tmm)%nat; [|lia].
    apply countb_pos. exists mm. rewrite M1. auto. }
  replace (0 <? n_start rows tmm) with true by (symmetry; apply Z.ltb_lt; auto).
  replace (0 <? min_list (map (fun x => Z.of_nat (live_at tmm x)) (map r_logl rows))) with true.
  2: { symmetry. apply Z.ltb_lt.
       destruct (min_list_spec (map (fun x => Z.of_nat (live_at tmm x)) (map r_logl rows))) as [Hin _].
       { intros H. apply map_eq_nil, map_eq_nil in H. auto. }
       apply in_map_iff in Hin as [z [<- Hz]]. apply in_map_iff in Hz as [x [<- Hx]].
       pose proof (live_pos rows tmm x Ht Hx). lia. }
  replace (last (map (fun x => Z.of_nat (live_at tmm x)) (map r_logl rows)) 0 =? 1) with true; auto.
  symmetry. apply Z.eqb_eq. rewrite last_nth, !map_length.
  assert (Hlen : (0 < length rows)%nat) by (destruct rows; [congruence|simpl; lia]).
  rewrite (map_nth_in _ _ _ 0 0) by (rewrite map_length; lia). rewrite nth_logl by lia.
  rewrite (live_max rows); auto.
  - apply nth_In. lia.
  - intros y Hy. destruct (in_nth_row _ _ Hy) as (j & J1 & <-).
    destruct (Nat.eq_dec j (length rows - 1)) as [->|Hj]; [lia|].
    pose proof (sorted_NoDup_lt rows (length rows - 1) j Hs Hnd ltac:(lia) ltac:(lia)). lia.
Qed.

(** ** Complete runs are balanced *)
Section Complete.
Variables (r : run) (labs : list Z) (tmm : list (ext * Z)).
Hypothesis Hc : complete_run r labs tmm.

Let lg := logl r.
Let n := length lg.

Lemma complete_parts : thread_labels r = Some labs /\ thread_min_max r = Some tmm /\
  length (nlive_array r) = n /\ length labs = n /\ length (theta r) = n /\
  StronglySorted Z.le lg /\ NoDup lg /\
  (forall x, In x labs <-> 0 <= x < Z.of_nat (length tmm)) /\
  lg <> [] /\ In NInf (map fst tmm).
Proof.
  destruct Hc as ((H1 & H2 & V1 & V2 & V3 & V4 & V5 & V6 & V7 & V8) & Hnd & _).
  rewrite map_length in V6. split; [auto|]. split; [auto|]. split; [auto|]. split; [auto|].
  split; [auto|]. split; [auto|]. split; [auto|]. split; [auto|].
  apply in_map_iff in V7 as [mm [M1 M2]]. split.
  - intros Hn. assert (Hl : labs = []) by (destruct labs; auto; unfold lg in *; rewrite Hn in V2; discriminate).
    assert (In 0 labs) by (apply V6; destruct tmm; [destruct M2|simpl; lia]). rewrite Hl in H. auto.
  - apply in_map_iff. exists mm. split; auto. destruct (fst mm); auto. discriminate.
Qed.

Lemma complete_label : forall i, (i < n)%nat -> exists k, (k < length tmm)%nat /\
    nth i labs 0 = Z.of_nat k /\
    starts_below (fst (tm tmm k)) (nth i lg 0) = true /\ nth i lg 0 <= snd (tm tmm k).
Proof.
  intros i Hi. destruct complete_parts as (P1 & P2 & P3 & P4 & P5 & P6 & P7 & P8 & P9 & P10).
  assert (Hin : In (nth i labs 0) labs) by (apply nth_In; lia).
  pose proof (proj1 (P8 _) Hin) as Hr. exists (Z.to_nat (nth i labs 0)).
  split; [lia|]. split; [lia|].
  destruct Hc as ((_ & _ & V1 & V2 & V3 & V4 & V5 & V6 & V7 & V8) & _ & S1 & _).
  rewrite map_length in V8.
  specialize (V8 (Z.to_nat (nth i labs 0)) ltac:(lia)) as [_ VL].
  rewrite Z2Nat.id in VL by lia. rewrite (map_nth_in _ _ _ 0 (NInf, 0)) in VL by lia.
  pose proof (hd_first _ _ Hin) as Hf. pose proof (last_last _ _ Hin) as Hl.
  split.
  - specialize (S1 (Z.to_nat (nth i labs 0)) (hd 0%nat (where_ (Z.eqb (nth i labs 0)) labs)) ltac:(lia)).
    rewrite Z2Nat.id in S1 by lia. specialize (S1 Hf).
    eapply sb_trans; [exact S1|]. apply ssorted_le_nth_le; auto. split; [|unfold lg, n in *; lia].
    destruct Hf as (F1 & F2 & F3).
    destruct (Nat.le_gt_cases (hd 0%nat (where_ (Z.eqb (nth i labs 0)) labs)) i); auto.
    exfalso. apply (F3 i); auto.
  - rewrite (VL _ Hl). apply ssorted_le_nth_le; auto. split.
    + destruct Hl as (L1 & L2 & L3).
      destruct (Nat.le_gt_cases i (last (where_ (Z.eqb (nth i labs 0)) labs) 0%nat)); auto.
      exfalso. apply (L3 i); auto. lia.
    + destruct Hl as (L1 & _). lia.
Qed.

Lemma complete_end : forall k, (k < length tmm)%nat -> exists i, (i < n)%nat /\
    nth i labs 0 = Z.of_nat k /\ nth i lg 0 = snd (tm tmm k).
Proof.
  intros k Hk. destruct complete_parts as (P1 & P2 & P3 & P4 & P5 & P6 & P7 & P8 & P9 & P10).
  assert (Hin : In (Z.of_nat k) labs) by (apply P8; lia).
  destruct Hc as ((_ & _ & V1 & V2 & V3 & V4 & V5 & V6 & V7 & V8) & _).
  rewrite map_length in V8. destruct (V8 k Hk) as [_ VL].
  pose proof (last_last _ _ Hin) as Hl. specialize (VL _ Hl).
  rewrite (map_nth_in _ _ _ 0 (NInf, 0)) in VL by lia.
  destruct Hl as (L1 & L2 & L3). eexists. split; [rewrite <- P4; exact L1|]. split; auto.
Qed.

Variable dn : list Z.
Hypothesis Hdn : length dn = n.
Let rows := zip_rows lg labs dn (theta r).

Lemma rows_cols : map r_logl rows = lg /\ map r_lab rows = labs /\ map r_dn rows = dn /\
                  map r_theta rows = theta r /\ length rows = n.
Proof.
  destruct complete_parts as (P1 & P2 & P3 & P4 & P5 & _). unfold rows.
  split; [|split; [|split; [|split]]].
  - apply zip_rows_logl; unfold n in *; congruence.
  - apply zip_rows_lab; unfold n in *; congruence.
  - apply zip_rows_dn; unfold n in *; congruence.
  - apply zip_rows_theta; unfold n in *; congruence.
  - apply zip_rows_length; unfold n in *; congruence.
Qed.

Lemma complete_tspec : tspec rows tmm.
Proof.
  destruct rows_cols as (R1 & R2 & R3 & R4 & R5). split.
  - intros x Hx. destruct (in_nth_row _ _ Hx) as (i & Hi & <-). rewrite R5 in Hi.
    destruct (complete_label i Hi) as (k & K1 & K2 & K3 & K4).
    rewrite <- R1, <- R2, ?nth_lab, ?nth_logl in * by lia. exists k. auto.
  - intros k Hk. destruct (complete_end k Hk) as (i & I1 & I2 & I3).
    exists (nth i rows row0). rewrite <- R1, <- R2, ?nth_lab, ?nth_logl in * by lia.
    split; [apply nth_In; lia|auto].
Qed.
End Complete.

Lemma sum_diff : forall l m, (m < length l)%nat ->
    zsum (firstn m (diff l)) = nth m l 0 - nth 0 l 0.
Proof.
  induction l as [|a t IH]; intros m Hm; [simpl in Hm; lia|].
  destruct m as [|m]; [simpl; unfold zsum; simpl; lia|].
  destruct t as [|b t]; [simpl in Hm; lia|].
  change (diff (a :: b :: t)) with ((b - a) :: diff (b :: t)). cbn [firstn].
  rewrite zsum_cons, IH by (simpl in *; lia). simpl nth. lia.
Qed.

Lemma filter_lt_firstn : forall rows x, StronglySorted (fun a b => r_logl a <= r_logl b) rows ->
    filter (fun y => r_logl y <? x) rows = firstn (countb (fun y => r_logl y <? x) rows) rows.
Proof.
  induction rows as [|a t IH]; intros x Hs; auto. inversion Hs; subst. rewrite Forall_forall in H2.
  simpl. destruct (r_logl a <? x) eqn:Ha; simpl; [f_equal; auto|].
  apply Z.ltb_ge in Ha.
  assert (Hnone : forall y, In y t -> (r_logl y <? x) = false).
  { intros y Hy. apply Z.ltb_ge. specialize (H2 y Hy). lia. }
  rewrite (proj2 (countb_zero _ (fun y => r_logl y <? x) t)) by auto. simpl.
  clear - Hnone. induction t as [|y t IH]; simpl; auto.
  rewrite (Hnone y) by (left; auto). apply IH. intros. apply Hnone. right; auto.
Qed.

Lemma countb_sorted_nth : forall rows x i, StronglySorted (fun a b => r_logl a <= r_logl b) rows ->
    (i < length rows)%nat ->
    (r_logl (nth i rows row0) < x <-> (i < countb (fun y => (r_logl y <? x)%Z) rows)%nat).
Proof.
  induction rows as [|a t IH]; intros x i Hs Hi; [simpl in Hi; lia|].
  inversion Hs; subst. rewrite Forall_forall in H2. simpl countb.
  destruct (r_logl a <? x) eqn:Ha.
  - apply Z.ltb_lt in Ha. destruct i as [|i]; simpl nth; [split; intros; lia|].
    rewrite (IH x i) by (auto; simpl in Hi; lia). lia.
  - apply Z.ltb_ge in Ha. rewrite (proj2 (countb_zero _ (fun y => r_logl y <? x) t)).
    + split; [|lia]. intros Hlt. destruct i as [|i]; simpl in Hlt; [lia|].
      assert (In (nth i t row0) t) by (apply nth_In; simpl in Hi; lia). specialize (H2 _ H). lia.
    + intros y Hy. apply Z.ltb_ge. specialize (H2 y Hy). lia.
Qed.

Theorem complete_balanced : forall r labs tmm, complete_run r labs tmm ->
    balanced (zip_rows (logl r) labs (diff (nlive_array r) ++ [-1]) (theta r)) tmm.
Proof.
  intros r labs tmm Hc x.
  destruct (complete_parts r labs tmm Hc) as (P1 & P2 & P3 & P4 & P5 & P6 & P7 & P8 & P9 & P10).
  assert (Hpos : (0 < length (logl r))%nat) by (destruct (logl r); [congruence|simpl; lia]).
  set (dn := diff (nlive_array r) ++ [-1]).
  assert (Hdn : length dn = length (logl r)).
  { unfold dn. rewrite app_length, diff_length. simpl. lia. }
  pose proof (complete_tspec r labs tmm Hc dn Hdn) as Ht.
  destruct (rows_cols r labs tmm Hc dn Hdn) as (R1 & R2 & R3 & R4 & R5).
  set (rows := zip_rows (logl r) labs dn (theta r)) in *.
  assert (Hs : StronglySorted (fun a b => r_logl a <= r_logl b) rows)
    by (apply sorted_rows; rewrite R1; auto).
  rewrite bal_live by (intros; eapply tspec_span; eauto).
  unfold dsum. rewrite filter_lt_firstn by auto. rewrite <- firstn_map, R3.
  pose proof (fun i => countb_sorted_nth rows x i Hs) as Hm.
  set (m := countb (fun y => r_logl y <? x) rows) in *.
  assert (Hmle : (m <= length rows)%nat) by apply countb_le.
  destruct Hc as (_ & _ & _ & S2 & S3).
  assert (Hstart : forall z e, In (Fin z, e) tmm -> exists j, (j < length rows)%nat /\ r_logl (nth j rows row0) = z).
  { intros z e Hin. specialize (S2 z e Hin). rewrite <- R1 in S2. apply in_map_iff in S2 as [y [Y1 Y2]].
    destruct (in_nth_row _ _ Y2) as (j & J1 & J2). exists j. split; auto. congruence. }
  assert (Hend : forall mm, In mm tmm -> exists j, (j < length rows)%nat /\ r_logl (nth j rows row0) = snd mm).
  { intros mm Hin. destruct (In_nth _ _ (NInf, 0) Hin) as (k & K1 & <-).
    destruct Ht as [_ Ht]. destruct (Ht k K1) as (y & Y1 & _ & Y3).
    destruct (in_nth_row _ _ Y1) as (j & J1 & J2). exists j. split; auto. congruence. }
  assert (Hn0 : nth 0 (nlive_array r) 0 = Z.of_nat (countb (fun mm => is_ninf (fst mm)) tmm)).
  { rewrite S3 by auto. f_equal. unfold live_at. rewrite <- countb_filter. apply countb_ext.
    intros [st en] Hin. rewrite <- R1, nth_logl by lia. unfold covers. cbn [fst snd].
    destruct (Hend _ Hin) as (j & J1 & J2). cbn [snd] in J2.
    replace (r_logl (nth 0 rows row0) <=? en) with true.
    2: { symmetry. apply Z.leb_le. rewrite <- J2.
         apply rows_le; [rewrite R1; auto|lia]. }
    rewrite andb_true_r. destruct st as [|z]; auto. cbn [starts_below is_ninf]. apply Z.ltb_ge.
    destruct (Hstart _ _ Hin) as (j' & J1' & J2'). rewrite <- J2'.
    apply rows_le; [rewrite R1; auto|lia]. }
  destruct (Nat.lt_ge_cases m (length rows)) as [Hlt|Hge].
  - unfold dn. rewrite firstn_app, diff_length.
    replace (m - pred (length (nlive_array r)))%nat with 0%nat by lia. simpl firstn at 2.
    rewrite app_nil_r, sum_diff by lia. rewrite Hn0, S3 by lia.
    f_equal. f_equal. unfold live_at. rewrite <- !countb_filter. apply countb_ext.
    intros [st en] Hin. rewrite <- R1, nth_logl by lia. unfold covers. cbn [fst snd].
    assert (Hxm : x <= r_logl (nth m rows row0)).
    { destruct (Z.lt_ge_cases (r_logl (nth m rows row0)) x) as [Hx|Hx]; [|lia].
      apply Hm in Hx; lia. }
    assert (Hcmp : forall j, (j < length rows)%nat ->
               (r_logl (nth j rows row0) < x <-> r_logl (nth j rows row0) < r_logl (nth m rows row0))).
    { intros j Hj. split; intros Hx; [lia|]. apply Hm; auto.
      destruct (Nat.lt_ge_cases j m) as [|Hjm]; auto.
      pose proof (rows_le rows m j ltac:(rewrite R1; auto) ltac:(lia)). lia. }
    f_equal.
    + destruct st as [|z]; auto. simpl. destruct (Hstart _ _ Hin) as (j & J1 & J2).
      specialize (Hcmp j J1). rewrite J2 in Hcmp. apply eq_true_iff_eq. rewrite !Z.ltb_lt. tauto.
    + destruct (Hend _ Hin) as (j & J1 & J2). simpl in J2. specialize (Hcmp j J1). rewrite J2 in Hcmp.
      apply eq_true_iff_eq. rewrite !Z.leb_le. lia.
  - assert (Hmn : m = length rows) by lia. rewrite firstn_all2 by lia. unfold dn.
    rewrite zsum_app. rewrite <- (firstn_all2 (n := pred (length (nlive_array r))) (diff (nlive_array r)))
      by (rewrite diff_length; lia).
    rewrite sum_diff by lia. rewrite Hn0.
    replace (live_at tmm x) with 0%nat.
    2: { symmetry. unfold live_at. rewrite <- countb_filter. apply countb_zero. intros [st en] Hin.
         unfold covers. apply andb_false_iff. right. apply Z.leb_gt. simpl.
         destruct (Hend _ Hin) as (j & J1 & J2). simpl in J2. rewrite <- J2. apply Hm; auto. lia. }
    rewrite S3 by lia. replace (pred (length (nlive_array r))) with (length rows - 1)%nat by lia.
    rewrite <- R1, nth_logl by lia. rewrite (live_max rows tmm (nth (length rows - 1) rows row0)); auto.
    + change (zsum [-1]) with (-1). lia.
    + rewrite R1; auto.
    + apply nth_In. lia.
    + intros y Hy. destruct (in_nth_row _ _ Hy) as (j & J1 & <-).
      apply rows_le; [rewrite R1; auto|lia].
Qed.
