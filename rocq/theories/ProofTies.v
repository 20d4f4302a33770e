(** combine_threads of threads which may contain each other's logls: needed for
    bootstrap resampling, where threads are repeated (C25). *)
From Verif Require Import Base ModelRun ModelData ProofBase ProofMonad Spec SpecRun
     ProofThreads ProofBirth ProofRun ProofProcess ProofDict ProofComb ProofRuns ProofJoin.

Lemma filter_firstn : forall A (p : A -> bool) l i,
    filter p (firstn i l) = firstn (countb p (firstn i l)) (filter p l).
Proof.
  induction l as [|x t IH]; intros [|i]; simpl; auto.
  destruct (p x); simpl; rewrite IH; auto.
Qed.
Lemma nth_firstn' : forall A (d : A) l i j, (j < i)%nat -> nth j (firstn i l) d = nth j l d.
Proof.
  induction l as [|x t IH]; intros [|i] [|j] H; simpl; auto; try lia. apply IH. lia.
Qed.
Lemma skipn_nth : forall A (d : A) l i, (i < length l)%nat -> skipn i l = nth i l d :: skipn (S i) l.
Proof.
  induction l as [|x t IH]; intros [|i] H; simpl in *; auto; try lia. apply IH. lia.
Qed.
Lemma Forall2_len : forall A B (R : A -> B -> Prop) l m, Forall2 R l m -> length l = length m.
Proof. induction 1; simpl; auto. Qed.
Lemma filter_flat_map : forall A B (p : B -> bool) (f : A -> list B) l,
    filter p (flat_map f l) = flat_map (fun a => filter p (f a)) l.
Proof. induction l; simpl; auto. rewrite filter_app, IHl. auto. Qed.

Lemma zsum_map_ge : forall A (f : A -> Z) l, (forall x, In x l -> 0 <= f x) -> 0 <= zsum (map f l).
Proof.
  induction l as [|x t IH]; intros H; [unfold zsum; simpl; lia|]. cbn [map]. rewrite zsum_cons.
  pose proof (H x (or_introl eq_refl)). specialize (IH (fun y Hy => H y (or_intror Hy))). lia.
Qed.
Lemma zsum_map_pos : forall A (f : A -> Z) l x, (forall x, In x l -> 0 <= f x) -> In x l -> 1 <= f x ->
    1 <= zsum (map f l).
Proof.
  induction l as [|y t IH]; intros x H Hin Hx; [destruct Hin|]. cbn [map]. rewrite zsum_cons.
  pose proof (H y (or_introl eq_refl)).
  destruct Hin as [->|Hin].
  - pose proof (zsum_map_ge A f t (fun y Hy => H y (or_intror Hy))). lia.
  - pose proof (IH x (fun y Hy => H y (or_intror Hy)) Hin Hx). lia.
Qed.
Lemma zsum_map_one : forall A (f : A -> Z) l x, NoDup l -> In x l -> f x = 1 ->
    (forall y, In y l -> y <> x -> f y = 0) -> zsum (map f l) = 1.
Proof.
  induction l as [|y t IH]; intros x Hnd Hin Hx H; [destruct Hin|]. cbn [map]. rewrite zsum_cons.
  inversion Hnd; subst. destruct Hin as [->|Hin].
  - rewrite Hx. replace (zsum (map f t)) with 0; auto. symmetry.
    assert (Hz : forall z, In z t -> f z = 0).
    { intros z Hz. apply H; [right; auto|]. intros ->. auto. }
    clear - Hz. induction t as [|z t IH]; auto. cbn [map]. rewrite zsum_cons, Hz by (left; auto).
    rewrite IH; auto. intros. apply Hz. right; auto.
  - rewrite (IH x); auto.
    + rewrite H; [lia|left; auto|]. intros ->. auto.
    + intros. apply H; auto. right; auto.
Qed.
Lemma zsum_map_add : forall A (f g : A -> Z) l,
    zsum (map (fun x => f x + g x) l) = zsum (map f l) + zsum (map g l).
Proof. induction l as [|x t IH]; auto. cbn [map]. rewrite !zsum_cons, IH. lia. Qed.

Lemma fold_bump_firstn : forall bs rows i,
    (forall b, In b bs -> (b < length rows)%nat) ->
    zsum (firstn i (map r_dn (fold_left (fun l i => bump i l) bs rows))) =
    zsum (firstn i (map r_dn rows)) + zsum (map (fun b => Z.b2z (b <? i)%nat) bs).
Proof.
  induction bs as [|b t IH]; intros rows i H.
  - cbn [fold_left]. change (zsum (map (fun b => Z.b2z (b <? i)%nat) [])) with 0. lia.
  - cbn [fold_left map]. rewrite zsum_cons, IH.
    + rewrite bump_dn. rewrite firstn_sum_upd by (rewrite map_length; apply H; left; auto).
      destruct (b <? i)%nat; cbn [Z.b2z]; lia.
    + intros b' Hb'. unfold bump. rewrite upd_length. apply H. right; auto.
Qed.

Section Ties.
Variable E : env.
Variable l : tspecs.
Hypothesis Hok : forall x, In x l -> ts_ok x.
Hypothesis Hne : l <> [].
Hypothesis Hstrict : forall x, In x l -> StronglySorted Z.lt (logl (fst x)).

Let T := length l.
Let dspec : run * (Z * (ext * Z)) := (mkRun [] [] [] None None None None, (0, (NInf, 0))).
Let sp k := nth (Z.to_nat k) l dspec.
Let trow (k : Z) := thread_rows (fst (sp k)) (fst (snd (sp k))).
Let mm (k : Z) := snd (snd (sp k)).
Let tagged := flat_map (fun k => map (pair k) (trow k)) (zrange T).
Let L := take (0, row0) tagged (argsort E (map r_logl (ts_rows l))).
Let sorted := sort_rows E (ts_rows l).

Lemma sp_ok : forall k, 0 <= k < Z.of_nat T -> ts_ok (sp k) /\ StronglySorted Z.lt (logl (fst (sp k))).
Proof.
  intros k Hk. assert (In (sp k) l) by (apply nth_In; unfold T in Hk; lia). auto.
Qed.

Lemma tagged_snd : map snd tagged = ts_rows l.
Proof.
  unfold tagged, ts_rows. rewrite flat_map_concat_map, concat_map, map_map.
  rewrite flat_map_concat_map. f_equal. unfold zrange. rewrite map_map.
  transitivity (map (fun k => trow (Z.of_nat k)) (seq 0 T)).
  - apply map_ext. intros k. rewrite map_map. simpl. apply map_id.
  - unfold trow, sp, T. rewrite (list_as_map _ dspec l) at 2. rewrite map_map. apply map_ext.
    intros k. rewrite Nat2Z.id. auto.
Qed.

Lemma tagged_length : length tagged = length (ts_rows l).
Proof. rewrite <- tagged_snd, map_length. auto. Qed.

Lemma L_snd : map snd L = sorted.
Proof.
  unfold L, sorted, sort_rows. rewrite (take_map _ _ snd (0, row0) row0).
  - rewrite tagged_snd. auto.
  - intros i Hi. apply argsort_lt in Hi. rewrite map_length in Hi. rewrite tagged_length. auto.
Qed.
Lemma L_perm : Permutation L tagged.
Proof.
  apply take_perm. rewrite (argsort_perm E (map r_logl (ts_rows l))), map_length, tagged_length. auto.
Qed.

Lemma tagged_filter : forall k, 0 <= k < Z.of_nat T ->
    filter (fun x => k =? fst x) tagged = map (pair k) (trow k).
Proof.
  intros k Hk. unfold tagged. rewrite filter_flat_map.
  assert (Hf : forall a, filter (fun x => k =? fst x) (map (pair a) (trow a)) =
                         if k =? a then map (pair k) (trow k) else []).
  { intros a. destruct (k =? a) eqn:Ha.
    - apply Z.eqb_eq in Ha. subst a. generalize (trow k). induction l0 as [|x t IH]; auto.
      simpl. rewrite Z.eqb_refl. f_equal. auto.
    - generalize (trow a). induction l0 as [|x t IH]; auto. simpl. rewrite Ha. auto. }
  rewrite (flat_map_ext _ _ Hf).
  assert (Hin : In k (zrange T)) by (apply in_zrange; auto).
  assert (Hnd : NoDup (zrange T)) by (apply ssorted_Zlt_NoDup, zrange_sorted).
  clear - Hin Hnd. induction (zrange T) as [|a t IH]; [destruct Hin|].
  inversion Hnd; subst. simpl. destruct Hin as [->|Hin].
  - rewrite Z.eqb_refl. replace (flat_map (fun x => if k =? x then map (pair k) (trow k) else []) t) with (@nil (Z * row)).
    + apply app_nil_r.
    + clear - H1. induction t as [|b t IH]; auto. simpl. destruct (k =? b) eqn:Hb.
      * apply Z.eqb_eq in Hb. subst. exfalso. apply H1. left; auto.
      * simpl. apply IH. intros H. apply H1. right; auto.
  - destruct (k =? a) eqn:Ha.
    + apply Z.eqb_eq in Ha. subst. tauto.
    + simpl. auto.
Qed.

Lemma L_sorted : StronglySorted (fun a b => r_logl (snd a) <= r_logl (snd b)) L.
Proof.
  rewrite <- (ssorted_map _ _ (fun x : Z * row => r_logl (snd x)) Z.le).
  rewrite <- map_map, L_snd. apply sort_rows_sorted.
Qed.

Lemma trow_strict : forall k, 0 <= k < Z.of_nat T -> StronglySorted (fun a b => r_logl a < r_logl b) (trow k).
Proof.
  intros k Hk. destruct (sp_ok k Hk) as [H1 H2].
  destruct (thread_rows_cols _ _ _ H1) as (R1 & _). rewrite <- R1 in H2.
  rewrite ssorted_map in H2. exact H2.
Qed.

Lemma L_filter : forall k, 0 <= k < Z.of_nat T ->
    filter (fun x => k =? fst x) L = map (pair k) (trow k).
Proof.
  intros k Hk.
  assert (Hp : Permutation (filter (fun x => k =? fst x) L) (map (pair k) (trow k))).
  { rewrite <- tagged_filter by auto. apply filter_perm, L_perm. }
  symmetry. apply (ssorted_perm_eq _ (fun a b => r_logl (snd a) <= r_logl (snd b))).
  - intros x y Hx Hy Hxy Hyx. apply in_map_iff in Hx as [x' [<- Hx]]. apply in_map_iff in Hy as [y' [<- Hy]].
    simpl in *. f_equal. pose proof (trow_strict k Hk) as Hs.
    destruct (In_nth _ _ row0 Hx) as (i & I1 & <-). destruct (In_nth _ _ row0 Hy) as (j & J1 & <-).
    destruct (Nat.lt_total i j) as [H|[->|H]]; auto.
    + pose proof (proj1 (ssorted_nth _ _ row0 (trow k)) Hs i j (conj H J1)) as Hlt. cbn beta in Hlt. lia.
    + pose proof (proj1 (ssorted_nth _ _ row0 (trow k)) Hs j i (conj H I1)) as Hlt. cbn beta in Hlt. lia.
  - rewrite ssorted_map. simpl. eapply ssorted_weaken; [|apply trow_strict; auto]. simpl. intros; lia.
  - apply ssorted_filter, L_sorted.
  - symmetry. auto.
Qed.

(** Number of rows of thread [k] before position [i]. *)
Definition seen (i : nat) (k : Z) : nat := countb (fun x => k =? fst x) (firstn i L).

Lemma seen_rows : forall i k, 0 <= k < Z.of_nat T ->
    filter (fun x => k =? fst x) (firstn i L) = map (pair k) (firstn (seen i k) (trow k)).
Proof. intros i k Hk. rewrite filter_firstn, L_filter by auto. rewrite firstn_map. auto. Qed.

Lemma seen_le : forall i k, 0 <= k < Z.of_nat T -> (seen i k <= length (trow k))%nat.
Proof.
  intros i k Hk. pose proof (f_equal (@length _) (L_filter k Hk)) as Hl. rewrite map_length in Hl.
  rewrite <- Hl, <- (firstn_skipn i L), filter_app, app_length, <- countb_filter. unfold seen. lia.
Qed.

Lemma L_tag : forall i, (i < length L)%nat -> 0 <= fst (nth i L (0, row0)) < Z.of_nat T.
Proof.
  intros i Hi. assert (Hin : In (nth i L (0, row0)) tagged).
  { apply (Permutation_in _ L_perm). apply nth_In; auto. }
  unfold tagged in Hin. apply in_flat_map in Hin as [k [Hk Hin]]. apply in_map_iff in Hin as [x [Hx _]].
  rewrite <- Hx. apply in_zrange. auto.
Qed.

Lemma seen_lt : forall i, (i < length L)%nat ->
    (seen i (fst (nth i L (0%Z, row0))) < length (trow (fst (nth i L (0%Z, row0)))))%nat.
Proof.
  intros i Hi. set (k := fst (nth i L (0, row0))).
  pose proof (L_tag i Hi) as Hk. fold k in Hk.
  pose proof (f_equal (@length _) (L_filter k Hk)) as Hl. rewrite map_length in Hl.
  rewrite <- Hl, <- (firstn_skipn i L), filter_app, app_length, <- countb_filter. fold (seen i k).
  assert (Hin : In (nth i L (0, row0)) (filter (fun x => k =? fst x) (skipn i L))).
  { apply filter_In. split; [|unfold k; apply Z.eqb_refl].
    rewrite <- (firstn_skipn i L) at 1. rewrite app_nth2; rewrite firstn_length_le by lia; [|lia].
    rewrite Nat.sub_diag. apply nth_In. rewrite skipn_length. lia. }
  destruct (filter (fun x => k =? fst x) (skipn i L)); [destruct Hin|simpl; lia].
Qed.

Lemma L_length : length L = length sorted.
Proof. rewrite <- L_snd, map_length. auto. Qed.

Lemma trow_parts : forall k, 0 <= k < Z.of_nat T ->
    (0 < length (trow k))%nat /\ map r_dn (trow k) = repeat 0 (length (trow k) - 1) ++ [-1] /\
    map r_logl (trow k) = logl (fst (sp k)) /\
    starts_below (fst (mm k)) (r_logl (nth 0 (trow k) row0)) = true.
Proof.
  intros k Hk. destruct (sp_ok k Hk) as [H1 H2]. unfold trow.
  destruct (thread_rows_cols _ _ _ H1) as (R1 & R2 & R3 & R4 & R5).
  rewrite R5. assert (Hp : (0 < length (logl (fst (sp k))))%nat).
  { pose proof (at_ne _ _ _ H1). destruct (logl (fst (sp k))); [congruence|simpl; lia]. }
  split; auto. split; auto. split; auto.
  rewrite <- nth_logl, R1 by lia. apply H1.
Qed.

Lemma dn_seen : forall i k, 0 <= k < Z.of_nat T ->
    zsum (map (fun x => r_dn (snd x)) (filter (fun x => k =? fst x) (firstn i L))) =
    - Z.b2z (seen i k =? length (trow k))%nat.
Proof.
  intros i k Hk. rewrite seen_rows by auto. rewrite map_map.
  change (fun x : row => r_dn (snd (k, x))) with r_dn. rewrite <- firstn_map. destruct (trow_parts k Hk) as (P1 & P2 & _). rewrite P2.
  pose proof (seen_le i k Hk) as Hle. rewrite firstn_app, repeat_length, firstn_repeat, zsum_app, zsum_zeros.
  destruct (seen i k =? length (trow k))%nat eqn:He.
  - apply Nat.eqb_eq in He. rewrite He.
    replace (length (trow k) - (length (trow k) - 1))%nat with 1%nat by lia. reflexivity.
  - apply Nat.eqb_neq in He.
    replace (seen i k - (length (trow k) - 1))%nat with 0%nat by lia. reflexivity.
Qed.

Lemma prefix_sum : forall i,
    zsum (firstn i (map r_dn sorted)) =
    - zsum (map (fun k => Z.b2z (seen i k =? length (trow k))%nat) (zrange T)).
Proof.
  intros i. rewrite firstn_map, <- L_snd, firstn_map, map_map.
  assert (Hp : Permutation (flat_map (fun k => filter (fun x => k =? fst x) (firstn i L)) (zrange T)) (firstn i L)).
  { apply (partition_perm _ fst).
    - apply ssorted_Zlt_NoDup, zrange_sorted.
    - intros x Hx. apply in_zrange. apply (In_nth _ _ (0, row0)) in Hx as (j & J1 & <-).
      rewrite firstn_length in J1. rewrite nth_firstn' by lia. apply L_tag. lia. }
  rewrite <- (zsum_perm _ _ (Permutation_map _ Hp)), zsum_flat_map.
  assert (Hall : forall k, In k (zrange T) -> 0 <= k < Z.of_nat T) by (intros; apply in_zrange; auto).
  revert Hall. generalize (zrange T). induction l0 as [|k t IH]; intros H; auto.
  cbn [map]. rewrite !zsum_cons, IH by (intros; apply H; right; auto).
  rewrite dn_seen by (apply H; left; auto). lia.
Qed.

(** Before the last row, one thread has not ended. *)
Lemma prefix_last : (0 < length sorted)%nat ->
    1 - Z.of_nat T <= zsum (firstn (length sorted - 1) (map r_dn sorted)).
Proof.
  intros Hp. rewrite prefix_sum. set (i := (length sorted - 1)%nat).
  set (k := fst (nth i L (0, row0))).
  assert (Hk : 0 <= k < Z.of_nat T) by (apply L_tag; rewrite L_length; unfold i; lia).
  assert (Hs : (seen i k < length (trow k))%nat) by (apply seen_lt; rewrite L_length; unfold i; lia).
  assert (H : 1 <= zsum (map (fun k => 1 - Z.b2z (seen i k =? length (trow k))%nat) (zrange T))).
  { apply (zsum_map_pos _ _ _ k).
    - intros x _. destruct (_ =? _)%nat; simpl; lia.
    - apply in_zrange; auto.
    - replace (seen i k =? length (trow k))%nat with false by (symmetry; apply Nat.eqb_neq; lia). simpl. lia. }
  assert (Hsplit : forall ks, zsum (map (fun k => 1 - Z.b2z (seen i k =? length (trow k))%nat) ks) =
                     Z.of_nat (length ks) - zsum (map (fun k => Z.b2z (seen i k =? length (trow k))%nat) ks)).
  { induction ks as [|x t IH]; auto. cbn [map length]. rewrite !zsum_cons, IH. lia. }
  rewrite Hsplit in H. unfold zrange in H at 1. rewrite map_length, seq_length in H. lia.
Qed.

(** ** With the starts *)
Hypothesis Hsa : starts_above (ts_tmm l) (min_list (map r_logl (ts_rows l))).
Variable bs : list nat.
Let lg := map r_logl sorted.
Hypothesis Hbs : Forall2 (attached lg) (finite_starts (ts_tmm l)) bs.
(** A start counted at the first point of its own thread: some other thread is alive there. *)
Hypothesis Hcov : forall x s b, In x l -> fst (snd (snd x)) = Fin s -> attached lg s b ->
    nth b lg 0 = nth 0 (logl (fst x)) 0 ->
    exists y, In y l /\ fst (snd (snd y)) = NInf /\ nth 0 (logl (fst x)) 0 < last (logl (fst y)) 0.

Lemma attached_lt : forall s b, attached lg s b -> (b < length sorted)%nat.
Proof. intros s b [H _]. unfold lg in H. rewrite map_length in H. auto. Qed.
(** It is counted at or before every point above the start. *)
Lemma attached_before : forall s b p, attached lg s b -> (p < length sorted)%nat ->
    s < r_logl (nth p sorted row0) -> (b <= p)%nat.
Proof.
  intros s b p [H1 H2] Hp Hs. destruct (Nat.le_gt_cases b p) as [|Hgt]; auto. exfalso.
  unfold lg in H1. rewrite map_length in H1.
  pose proof (rows_le sorted p b (sort_rows_sorted _ _) ltac:(lia)) as Hle.
  unfold lg in H2. destruct H2 as [H2|(_ & _ & H2)].
  - rewrite nth_logl in H2 by auto. lia.
  - specialize (H2 p Hgt). rewrite !nth_logl in H2 by auto. lia.
Qed.

Definition placed (m : ext * Z) (o : option nat) : Prop :=
  match fst m, o with
  | NInf, None => True
  | Fin s, Some i => attached lg s i
  | _, _ => False
  end.

Lemma placed_list : exists ob, Forall2 placed (ts_tmm l) ob /\ bs = somes ob.
Proof.
  generalize Hbs. generalize bs. generalize (ts_tmm l). induction l0 as [|[[|s] e] t IH]; intros b H.
  - inversion H. exists []. split; auto.
  - destruct (IH b H) as (ob & O1 & O2). exists (None :: ob). split; [constructor; [exact I|auto]|auto].
  - inversion H; subst. destruct (IH l' H4) as (ob & O1 & O2). exists (Some y :: ob).
    split; [constructor; auto|]. simpl. f_equal. auto.
Qed.

Definition begun (ob : list (option nat)) (i : nat) (k : Z) : Z :=
  match nth (Z.to_nat k) ob None with None => 1 | Some b => Z.b2z (b <? i)%nat end.

Lemma begun_sum : forall ob i, Forall2 placed (ts_tmm l) ob ->
    Z.of_nat (countb (fun m => is_ninf (fst m)) (ts_tmm l)) + zsum (map (fun b => Z.b2z (b <? i)%nat) (somes ob)) =
    zsum (map (begun ob i) (zrange T)).
Proof.
  intros ob i H. assert (Hl : length ob = T).
  { rewrite <- (Forall2_len _ _ _ _ _ H). unfold ts_tmm. apply map_length. }
  unfold begun, zrange. rewrite map_map.
  transitivity (zsum (map (fun o => match o with None => 1 | Some b => Z.b2z (b <? i)%nat end) ob)).
  - clear Hl Hsa Hbs Hcov. induction H as [|[[|s] e] o ms os Hp H IH]; auto.
    + destruct o; [destruct Hp|]. cbn [countb is_ninf fst somes flat_map app map].
      fold (somes os). rewrite zsum_cons, <- IH. lia.
    + destruct o; [|destruct Hp]. cbn [countb is_ninf fst somes flat_map app map].
      fold (somes os). rewrite !zsum_cons, <- IH. lia.
  - rewrite (list_as_map _ None ob) at 1. rewrite map_map, Hl. f_equal. apply map_ext.
    intros k. rewrite Nat2Z.id. auto.
Qed.

(** The rows after adding the starts. *)
Let rows := fold_left (fun l i => bump i l) bs sorted.

Lemma nl_value : forall ob i, Forall2 placed (ts_tmm l) ob -> bs = somes ob ->
    (i < length sorted)%nat ->
    nth i (nl_of (n_start rows (ts_tmm l)) (map r_dn rows)) 0 =
    zsum (map (fun k => begun ob i k - Z.b2z (seen i k =? length (trow k))%nat) (zrange T)).
Proof.
  intros ob i Hob Hb Hi. unfold nl_of.
  assert (Hk : map key rows = map key sorted) by apply fold_bump_key.
  assert (Hlen : length rows = length sorted).
  { apply (f_equal (@length _)) in Hk. rewrite !map_length in Hk. auto. }
  rewrite nth_map_seq by (rewrite map_length; lia).
  unfold rows at 2. rewrite fold_bump_firstn.
  2: { intros b' Hb'. clear - Hbs Hb'. induction Hbs as [|s j ss js A H IH]; [destruct Hb'|].
       destruct Hb' as [->|Hb']; auto. eapply attached_lt; eauto. }
  assert (Hsa' : starts_above (ts_tmm l) (min_list (map r_logl rows))).
  { destruct (keys_cols _ _ Hk) as (-> & _ & _).
    rewrite (min_list_perm _ (map r_logl (ts_rows l))); auto.
    - apply Permutation_map, sort_rows_perm.
    - intros H. apply map_eq_nil in H. rewrite H in Hi. simpl in Hi. lia. }
  destruct (n_start_ninf rows (ts_tmm l) Hsa') as [-> _].
  rewrite prefix_sum.
  replace (zsum (map (fun k => begun ob i k - Z.b2z (seen i k =? length (trow k))%nat) (zrange T)))
    with (zsum (map (begun ob i) (zrange T)) - zsum (map (fun k => Z.b2z (seen i k =? length (trow k))%nat) (zrange T))).
  - rewrite <- (begun_sum ob i Hob), <- Hb. lia.
  - generalize (zrange T). induction l0 as [|x t IH]; auto. cbn [map]. rewrite !zsum_cons, <- IH. lia.
Qed.

Lemma begun_01 : forall ob i k, 0 <= begun ob i k <= 1.
Proof. intros. unfold begun. destruct (nth _ ob None); [|lia]. destruct (_ <? i)%nat; simpl; lia. Qed.

Lemma placed_nth : forall ob k, Forall2 placed (ts_tmm l) ob -> 0 <= k < Z.of_nat T ->
    placed (mm k) (nth (Z.to_nat k) ob None).
Proof.
  intros ob k Hob Hk.
  assert (Hm : mm k = nth (Z.to_nat k) (ts_tmm l) (snd (snd dspec))).
  { unfold mm, sp, ts_tmm. symmetry. rewrite (map_nth_in _ _ _ _ dspec) by (unfold T in Hk; lia). auto. }
  rewrite Hm. assert (Hlk : (Z.to_nat k < length (ts_tmm l))%nat).
  { unfold ts_tmm. rewrite map_length. unfold T in Hk. lia. }
  revert Hlk. generalize (Z.to_nat k). clear - Hob. induction Hob as [|a b la lb Hab H IH]; intros [|n] Hn; simpl in *; try lia; auto.
  apply IH. lia.
Qed.

(** A thread which has a row before position [p] has begun. *)
Lemma begun_before : forall ob k q p, Forall2 placed (ts_tmm l) ob -> 0 <= k < Z.of_nat T ->
    (q < p)%nat -> (q < length sorted)%nat -> r_logl (nth 0 (trow k) row0) <= r_logl (nth q sorted row0) ->
    begun ob p k = 1.
Proof.
  intros ob k q p Hob Hk Hqp Hq Hle. unfold begun. pose proof (placed_nth ob k Hob Hk) as Hpl.
  destruct (trow_parts k Hk) as (_ & _ & _ & Hsb).
  destruct (nth (Z.to_nat k) ob None) as [b|]; auto.
  unfold placed in Hpl. destruct (fst (mm k)) as [|s]; [destruct Hpl|].
  simpl in Hsb. apply Z.ltb_lt in Hsb.
  pose proof (attached_before s b q Hpl Hq ltac:(lia)).
  replace (b <? p)%nat with true; auto. symmetry. apply Nat.ltb_lt. lia.
Qed.

(** Rows of thread [k] seen before position [i] sit at some position. *)
Lemma seen_position : forall i k, 0 <= k < Z.of_nat T -> (0 < seen i k)%nat -> (i <= length sorted)%nat ->
    exists p, (p < i)%nat /\ nth p sorted row0 = nth 0 (trow k) row0.
Proof.
  intros i k Hk Hs Hi. pose proof (seen_rows i k Hk) as Hf.
  destruct (trow_parts k Hk) as (P1 & _).
  assert (Hin : In (k, nth 0 (trow k) row0) (firstn i L)).
  { apply (proj1 (filter_In (fun x => k =? fst x) (k, nth 0 (trow k) row0) (firstn i L))).
    rewrite Hf. apply in_map. destruct (trow k) as [|x t]; [simpl in P1; lia|].
    destruct (seen i k); [lia|]. left. auto. }
  apply (In_nth _ _ (0, row0)) in Hin as (p & P2 & P3). rewrite firstn_length in P2.
  exists p. split; [lia|]. rewrite nth_firstn' in P3 by lia.
  rewrite <- L_snd. rewrite (map_nth_in _ _ _ row0 (0, row0)) by (rewrite L_length; lia). rewrite P3. auto.
Qed.

Lemma row_at : forall i, (i < length sorted)%nat -> let k := fst (nth i L (0, row0)) in
    r_logl (nth 0 (trow k) row0) <= r_logl (nth i sorted row0).
Proof.
  intros i Hi k. rewrite <- L_length in Hi. pose proof (L_tag i Hi) as Hk. fold k in Hk.
  assert (Hin : In (nth i L (0, row0)) (map (pair k) (trow k))).
  { rewrite <- L_filter by auto. apply filter_In. split; [apply nth_In; auto|]. unfold k. apply Z.eqb_refl. }
  apply in_map_iff in Hin as [x [Hx Hin]].
  rewrite <- L_snd, (map_nth_in _ _ _ row0 (0, row0)) by auto. rewrite <- Hx. cbn [snd].
  destruct (In_nth _ _ row0 Hin) as (j & J1 & <-).
  destruct j as [|j]; [lia|].
  pose proof (proj1 (ssorted_nth _ _ row0 (trow k)) (trow_strict k Hk) 0%nat (S j) (conj (Nat.lt_0_succ j) J1)) as Hlt. cbn beta in Hlt. lia.
Qed.

Lemma term_ge : forall ob i k, Forall2 placed (ts_tmm l) ob -> In k (zrange T) ->
    (i < length sorted)%nat ->
    0 <= begun ob i k - Z.b2z (seen i k =? length (trow k))%nat.
Proof.
  intros ob i k Hob Hk Hi. apply in_zrange in Hk. pose proof (begun_01 ob i k).
  destruct (seen i k =? length (trow k))%nat eqn:He; cbn [Z.b2z]; [|lia].
  apply Nat.eqb_eq in He. destruct (trow_parts k Hk) as (P1 & _).
  destruct (seen_position i k Hk ltac:(lia) ltac:(lia)) as (p & P2 & P3).
  rewrite (begun_before ob k p); auto; [lia|lia|]. rewrite P3. lia.
Qed.

(** A thread with a row at or above position [i] has not ended there. *)
Lemma not_ended : forall i k, 0 <= k < Z.of_nat T -> (i < length sorted)%nat ->
    r_logl (nth i sorted row0) < last (logl (fst (sp k))) 0 -> (seen i k < length (trow k))%nat.
Proof.
  intros i k Hk Hi Hlt. destruct (trow_parts k Hk) as (P1 & _ & P3 & _).
  pose proof (seen_le i k Hk) as Hle. destruct (Nat.eq_dec (seen i k) (length (trow k))) as [He|]; [|lia].
  exfalso. pose proof (seen_rows i k Hk) as Hf. rewrite He, firstn_all in Hf.
  assert (Hin : In (k, last (trow k) row0) (firstn i L)).
  { apply (proj1 (filter_In (fun x => k =? fst x) (k, last (trow k) row0) (firstn i L))).
    rewrite Hf. apply in_map. destruct (trow k) as [|x t]; [simpl in P1; lia|].
    rewrite last_nth. apply nth_In. cbn [length]. lia. }
  apply (In_nth _ _ (0, row0)) in Hin as (p & P2 & P4). rewrite firstn_length in P2.
  rewrite nth_firstn' in P4 by lia.
  assert (Hp : r_logl (nth p sorted row0) = last (logl (fst (sp k))) 0).
  { rewrite <- L_snd. rewrite (map_nth_in _ _ _ row0 (0, row0)) by (rewrite L_length; lia). rewrite P4.
    cbn [snd]. rewrite <- P3, !last_nth, map_length, nth_logl by lia. auto. }
  pose proof (rows_le sorted p i (sort_rows_sorted _ _) ltac:(lia)). lia.
Qed.

Lemma nl_pos : forall i, (i < length sorted)%nat ->
    1 <= nth i (nl_of (n_start rows (ts_tmm l)) (map r_dn rows)) 0.
Proof.
  intros i Hi. destruct placed_list as (ob & O1 & O2). rewrite (nl_value ob i) by auto.
  set (k := fst (nth i L (0, row0))).
  assert (Hk : 0 <= k < Z.of_nat T) by (apply L_tag; rewrite L_length; auto).
  assert (Hs : (seen i k < length (trow k))%nat) by (apply seen_lt; rewrite L_length; auto).
  pose proof (begun_01 ob i k) as H01.
  destruct (Z.eq_dec (begun ob i k) 1) as [Hb1|Hb1].
  - apply (zsum_map_pos _ _ _ k).
    + intros x Hx. apply term_ge; auto.
    + apply in_zrange; auto.
    + replace (seen i k =? length (trow k))%nat with false by (symmetry; apply Nat.eqb_neq; lia).
      rewrite Hb1. simpl. lia.
  - assert (Hb0 : begun ob i k = 0) by lia. clear H01 Hb1.
    unfold begun in Hb0. pose proof (placed_nth ob k O1 Hk) as Hpl.
    destruct (nth (Z.to_nat k) ob None) as [b|]; [|discriminate].
    unfold placed in Hpl. destruct (fst (mm k)) as [|s] eqn:Hm; [destruct Hpl|].
    destruct (b <? i)%nat eqn:Hbi; [discriminate|]. apply Nat.ltb_ge in Hbi.
    destruct (trow_parts k Hk) as (P1 & _ & P3 & Hsb). rewrite Hm in Hsb. simpl in Hsb. apply Z.ltb_lt in Hsb.
    pose proof (row_at i Hi) as Hrow. cbv zeta in Hrow. fold k in Hrow.
    assert (b = i) as -> by (pose proof (attached_before s b i Hpl Hi ltac:(lia)); lia).
    assert (Hfirst : r_logl (nth i sorted row0) = r_logl (nth 0 (trow k) row0)).
    { destruct (Z.eq_dec (r_logl (nth i sorted row0)) (r_logl (nth 0 (trow k) row0))) as [|Hd]; auto. exfalso.
      assert (Hin : In (k, nth 0 (trow k) row0) L).
      { apply (proj1 (filter_In (fun x => k =? fst x) (k, nth 0 (trow k) row0) L)). rewrite L_filter by auto.
        apply in_map. apply nth_In. auto. }
      apply (In_nth _ _ (0, row0)) in Hin as (p & P4 & P5). rewrite L_length in P4.
      assert (Hp : nth p sorted row0 = nth 0 (trow k) row0).
      { rewrite <- L_snd, (map_nth_in _ _ _ row0 (0, row0)) by (rewrite L_length; auto). rewrite P5. auto. }
      pose proof (attached_before s i p Hpl P4 ltac:(rewrite Hp; lia)) as Hip.
      pose proof (rows_le sorted i p (sort_rows_sorted _ _) ltac:(lia)) as Hle. rewrite Hp in Hle. lia. }
    assert (Hx : nth 0 (logl (fst (sp k))) 0 = r_logl (nth 0 (trow k) row0)).
    { rewrite <- P3, nth_logl by lia. auto. }
    destruct (Hcov (sp k) s i) as (y & Y1 & Y2 & Y3); auto.
    { apply nth_In. unfold T in Hk. lia. }
    { unfold lg. rewrite nth_logl by auto. rewrite Hx. auto. }
    apply (In_nth _ _ dspec) in Y1 as (n & N1 & N2). set (k' := Z.of_nat n).
    assert (Hk' : 0 <= k' < Z.of_nat T) by (unfold T, k'; lia).
    assert (Hsp : sp k' = y) by (unfold sp, k'; rewrite Nat2Z.id; auto).
    apply (zsum_map_pos _ _ _ k').
    + intros x Hx'. apply term_ge; auto.
    + apply in_zrange; auto.
    + assert (Hs' : (seen i k' < length (trow k'))%nat).
      { apply not_ended; auto. rewrite Hsp. lia. }
      replace (seen i k' =? length (trow k'))%nat with false by (symmetry; apply Nat.eqb_neq; lia).
      pose proof (placed_nth ob k' O1 Hk') as Hpl'. unfold placed in Hpl'. unfold mm in Hpl'.
      rewrite Hsp, Y2 in Hpl'. unfold begun. destruct (nth (Z.to_nat k') ob None); [destruct Hpl'|]. simpl. lia.
Qed.

Lemma nl_last : (0 < length sorted)%nat ->
    nth (length sorted - 1) (nl_of (n_start rows (ts_tmm l)) (map r_dn rows)) 0 = 1.
Proof.
  intros Hp. pose proof (nl_pos (length sorted - 1) ltac:(lia)) as Hge. revert Hge.
  destruct placed_list as (ob & O1 & O2). rewrite (nl_value ob) by (auto; lia). intros Hge.
  set (i := (length sorted - 1)%nat) in *. set (k := fst (nth i L (0, row0))).
  assert (Hk : 0 <= k < Z.of_nat T) by (apply L_tag; rewrite L_length; unfold i; lia).
  assert (Hi : (i < length sorted)%nat) by (unfold i; lia).
  assert (Hs : (seen i k < length (trow k))%nat) by (apply seen_lt; rewrite L_length; auto).
  assert (Hoth : forall k', In k' (zrange T) -> k' <> k ->
             begun ob i k' - Z.b2z (seen i k' =? length (trow k'))%nat = 0).
  { intros k' Hk' Hne'. apply in_zrange in Hk'.
    assert (Hall : seen i k' = length (trow k')).
    { pose proof (f_equal (@length _) (L_filter k' Hk')) as Hl. rewrite map_length in Hl.
      rewrite <- Hl. rewrite <- (firstn_skipn i L) at 1. rewrite filter_app, app_length, <- countb_filter.
      fold (seen i k').
      replace (skipn i L) with [nth i L (0, row0)].
      - simpl. fold k. replace (k' =? k) with false by (symmetry; apply Z.eqb_neq; auto). simpl. lia.
      - pose proof L_length as HL. assert (Hlen : (S i = length L)%nat) by (unfold i; lia).
        rewrite (skipn_nth _ (0, row0)) by lia. rewrite skipn_all2 by lia. auto. }
    rewrite Hall, Nat.eqb_refl. destruct (trow_parts k' Hk') as (P1 & _).
    destruct (seen_position i k' Hk' ltac:(lia) ltac:(lia)) as (p & P2 & P3).
    rewrite (begun_before ob k' p); auto; [lia|]. rewrite P3. lia. }
  assert (Hk1 : begun ob i k - Z.b2z (seen i k =? length (trow k))%nat = 1).
  { pose proof (begun_01 ob i k) as H01.
    replace (seen i k =? length (trow k))%nat with false by (symmetry; apply Nat.eqb_neq; lia).
    cbn [Z.b2z]. destruct (Z.eq_dec (begun ob i k) 0) as [H0|H0]; [exfalso|lia].
    assert (Hz : zsum (map (fun k => begun ob i k - Z.b2z (seen i k =? length (trow k))%nat) (zrange T)) = 0).
    { assert (Hall : forall k', In k' (zrange T) -> begun ob i k' - Z.b2z (seen i k' =? length (trow k'))%nat = 0).
      { intros k' Hk'. destruct (Z.eq_dec k' k) as [->|Hd]; [|apply Hoth; auto].
        replace (seen i k =? length (trow k))%nat with false by (symmetry; apply Nat.eqb_neq; lia).
        simpl. lia. }
      revert Hall. generalize (zrange T). clear. induction l0 as [|x t IH]; intros H; auto.
      cbn [map]. rewrite zsum_cons, IH by (intros; apply H; right; auto).
      specialize (H x (or_introl eq_refl)). lia. }
    lia. }
  apply (zsum_map_one _ _ _ k); auto.
  - apply ssorted_Zlt_NoDup, zrange_sorted.
  - apply in_zrange; auto.
Qed.
End Ties.

(** nlive at the first row with a given logl. *)
Lemma nl_live_span : forall rows tmm i, StronglySorted Z.le (map r_logl rows) ->
    (forall mm, In mm tmm -> starts_below (fst mm) (snd mm) = true) ->
    balanced rows tmm -> starts_above tmm (min_list (map r_logl rows)) -> (i < length rows)%nat ->
    (forall j, (j < i)%nat -> r_logl (nth j rows row0) < r_logl (nth i rows row0)) ->
    nth i (nl_of (n_start rows tmm) (map r_dn rows)) 0 =
    Z.of_nat (live_at tmm (r_logl (nth i rows row0))).
Proof.
  intros rows tmm i Hs Hsp Hb Hsa Hi Hf.
  rewrite (nl_nth _ rows i) by (auto using sorted_rows).
  rewrite Hb, bal_live by auto.
  destruct (n_start_ninf rows tmm Hsa) as [-> _]. lia.
Qed.

Lemma thread_span_ok : forall th lab mm, a_thread th lab mm -> starts_below (fst mm) (snd mm) = true.
Proof.
  intros th lab mm H. apply (sb_trans _ (nth 0 (logl th) 0)); [apply H|].
  rewrite <- (at_last _ _ _ H), last_nth. apply ssorted_le_nth_le; [apply H|].
  pose proof (at_ne _ _ _ H). destruct (logl th); [congruence|simpl; lia].
Qed.

Lemma drop_bad_any : forall r, settings r = None ->
    thread_labels r <> None -> thread_min_max r <> None ->
    exists r', drop_bad_threads r = Ok r' /\ logl r' = logl r /\ theta r' = theta r /\
               nlive_array r' = nlive_array r /\ output r' = output r /\ settings r' = settings r /\
               (r' = r \/ thread_labels r' = None /\ thread_min_max r' = None).
Proof.
  intros r Hs Hl Ht. unfold drop_bad_threads, check_ns_run_threads.
  destruct (thread_labels r) as [labs|]; [|congruence].
  destruct (thread_min_max r) as [tmm|]; [|congruence].
  assert (H : forall b k, (k = Ok tt \/ k = Raise AssertionError) ->
             (let! _ := assertb b in k) = Ok tt \/ (let! _ := assertb b in k) = Raise AssertionError).
  { intros [] k Hk; simpl; auto. }
  match goal with |- context [match ?m with _ => _ end] =>
    assert (Hm : m = Ok tt \/ m = Raise AssertionError) end.
  { apply H, H. generalize tt as u. induction (unique labs) as [|x t IH]; intros [].
    - left; auto.
    - cbn [foldM]. match goal with |- context [rbind ?m _] => assert (Hm : m = Ok tt \/ m = Raise AssertionError) end.
      { apply H. match goal with |- assertb ?b = _ \/ _ => destruct b; simpl; auto end. }
      destruct Hm as [-> | ->]; simpl; auto. }
  destruct Hm as [-> | ->]; eexists; (split; [reflexivity|]); cbn [logl theta nlive_array output settings thread_labels thread_min_max]; tauto.
Qed.

(** ** Finding the points where the starts are counted *)
Lemma argmin_from_spec : forall l best bi i pre,
    length pre = i -> (bi < i)%nat -> nth bi pre 0 = best ->
    (forall j, (j < i)%nat -> best <= nth j pre 0) -> (forall j, (j < bi)%nat -> best < nth j pre 0) ->
    let b := argmin_from best bi i l in
    (b < length (pre ++ l))%nat /\
    (forall j, (j < length (pre ++ l))%nat -> nth b (pre ++ l) 0 <= nth j (pre ++ l) 0) /\
    (forall j, (j < b)%nat -> nth b (pre ++ l) 0 < nth j (pre ++ l) 0).
Proof.
  induction l as [|x t IH]; intros best bi i pre Hi Hb Hbest Hmin Hfirst; cbn [argmin_from].
  - rewrite app_nil_r. cbv zeta. rewrite Hi, Hbest. auto.
  - assert (Happ : pre ++ x :: t = (pre ++ [x]) ++ t) by (rewrite <- app_assoc; auto). rewrite Happ.
    assert (Hlen : length (pre ++ [x]) = S i) by (rewrite app_length; simpl; lia).
    assert (Hx : nth i (pre ++ [x]) 0 = x) by (rewrite app_nth2 by lia; rewrite Hi, Nat.sub_diag; auto).
    assert (Hpre : forall j, (j < i)%nat -> nth j (pre ++ [x]) 0 = nth j pre 0) by (intros; apply app_nth1; lia).
    destruct (Z.ltb_spec x best) as [Hlt|Hge].
    + apply IH; auto.
      * intros j Hj. destruct (Nat.eq_dec j i) as [->|]; [lia|]. rewrite Hpre by lia. specialize (Hmin j ltac:(lia)). lia.
      * intros j Hj. rewrite Hpre by lia. specialize (Hmin j Hj). lia.
    + apply IH; auto.
      * rewrite Hpre by lia. auto.
      * intros j Hj. destruct (Nat.eq_dec j i) as [->|]; [lia|]. rewrite Hpre by lia. apply Hmin. lia.
      * intros j Hj. rewrite Hpre by lia. auto.
Qed.
Lemma argmin_spec : forall l, l <> [] -> (argmin l < length l)%nat /\
    (forall j, (j < length l)%nat -> nth (argmin l) l 0 <= nth j l 0) /\
    (forall j, (j < argmin l)%nat -> nth (argmin l) l 0 < nth j l 0).
Proof.
  intros [|x t] H; [congruence|]. apply (argmin_from_spec t x 0 1 [x]); auto.
  - intros [|j] Hj; [simpl; lia|lia].
  - intros; lia.
Qed.

Lemma starts_near : forall E ss rows (w : world E), rows <> [] ->
    exists bs w', wfoldM (add_start false) ss rows w = (Ok (fold_left (fun l i => bump i l) bs rows), w') /\
      w_warn w' = w_warn w /\ Forall2 (attached (map r_logl rows)) ss bs.
Proof.
  intros E ss. induction ss as [|s t IH]; intros rows w Hne.
  - exists [], w. split; [auto|]. split; auto.
  - cbn [wfoldM].
    assert (Hstep : exists i w1, add_start false rows s w = (Ok (bump i rows), w1) /\ w_warn w1 = w_warn w /\
                      attached (map r_logl rows) s i).
    { unfold add_start. rewrite (wbind_run _ _ _ _ _ w tt w) by reflexivity.
      pose proof (fun i => in_where _ (fun x => r_logl x =? s) row0 rows i) as Hw.
      assert (Hon : forall i, In i (where_ (fun x => r_logl x =? s) rows) -> attached (map r_logl rows) s i).
      { intros i Hi. apply Hw in Hi as [I1 I2]. apply Z.eqb_eq in I2. split; [rewrite map_length; auto|].
        left. rewrite nth_logl by auto. auto. }
      destruct (where_ (fun x => r_logl x =? s) rows) as [|a [|b l]].
      - eexists _, w. split; [reflexivity|]. split; auto.
        destruct (argmin_spec (map (fun x => Z.abs (r_logl x - s)) rows)) as (A1 & A2 & A3).
        { intros H. apply map_eq_nil in H. auto. }
        set (b := argmin (map (fun x => Z.abs (r_logl x - s)) rows)) in *. rewrite map_length in *.
        assert (Hnth : forall j, (j < length rows)%nat ->
                  nth j (map (fun x => Z.abs (r_logl x - s)) rows) 0 = Z.abs (nth j (map r_logl rows) 0 - s)).
        { intros j Hj. rewrite nth_logl by auto. rewrite (map_nth_in _ _ _ _ row0) by auto. auto. }
        split; [rewrite map_length; auto|]. right. split.
        { intros Hin. apply in_map_iff in Hin as [x [Hx Hin]].
          destruct (in_nth_row _ _ Hin) as (i & I1 & I2). apply (proj2 (Hw i)). split; auto.
          rewrite I2. apply Z.eqb_eq; auto. }
        rewrite map_length. split; intros j Hj; rewrite <- !Hnth by lia; auto.
      - exists a, w. split; auto. split; auto. apply Hon. left; auto.
      - destruct (choice_ok E nat (a :: b :: l) w) as (i & w1 & C1 & C2 & C3); [discriminate|].
        exists i, w1. rewrite (wbind_run _ _ _ _ _ _ _ _ C1). split; auto. }
    destruct Hstep as (i & w1 & S1 & S2 & S3).
    rewrite (wbind_run _ _ _ _ _ _ _ _ S1).
    destruct (IH (bump i rows) w1) as (bs & w2 & I1 & I2 & I3).
    { intros H. apply (f_equal (map r_logl)) in H. rewrite bump_logl in H. apply map_eq_nil in H. auto. }
    exists (i :: bs), w2. split; [exact I1|]. split; [congruence|]. constructor; auto.
    rewrite bump_logl in I3. auto.
Qed.

Lemma combine_threads_near : forall E l (w : world E), l <> [] -> ts_rows l <> [] ->
    (forall x, In x l -> ts_ok x) ->
    exists bs, let sorted := sort_rows E (ts_rows l) in
      let rows := fold_left (fun l i => bump i l) bs sorted in
      Forall2 (attached (map r_logl sorted)) (finite_starts (ts_tmm l)) bs /\
      combine_threads (map fst l) false w =
      (let* r := dict_given_run_array rows (ts_tmm l) in wlift (drop_bad_threads r)) w.
Proof.
  intros E l w Hne Hne' Hok. destruct (ts_arrays l Hok) as [A1 A2].
  assert (Hperm : Permutation (sort_rows E (ts_rows l)) (ts_rows l)) by apply sort_rows_perm.
  destruct (starts_near E (finite_starts (ts_tmm l)) (sort_rows E (ts_rows l))
                        (mkW (r_seed E 0) (w_warn w))) as (bs & w1 & S1 & S2 & S3).
  { intros H. rewrite H in Hperm. apply Permutation_nil in Hperm. auto. }
  exists bs. cbv zeta. split; auto.
  unfold combine_threads. destruct (map fst l) as [|y t] eqn:Hm.
  { destruct l; [congruence|discriminate]. }
  rewrite <- Hm in *. clear y t Hm. rewrite A2, A1.
  replace (length (map fst l) =? length (ts_tmm l))%nat with true
    by (symmetry; apply Nat.eqb_eq; unfold ts_tmm; rewrite !map_length; auto).
  rewrite (wbind_run _ _ _ _ _ w tt w) by reflexivity.
  rewrite (wbind_run _ _ _ _ _ w _ w) by reflexivity.
  rewrite (wbind_run _ _ _ _ _ w (w_rng w) w) by reflexivity.
  rewrite (wbind_run _ _ _ _ _ w tt (mkW (r_seed E 0) (w_warn w))) by reflexivity.
  replace (concat (map (fun x => thread_rows (fst x) (fst (snd x))) l)) with (ts_rows l)
    by (unfold ts_rows; rewrite <- flat_map_concat_map; auto).
  rewrite (wbind_run _ _ _ _ _ _ _ _ S1).
  rewrite (wbind_run _ _ _ _ _ _ tt w).
  - reflexivity.
  - unfold set_state. rewrite S2. simpl. rewrite world_eta. auto.
Qed.

Lemma fold_bump_near : forall x lg bs rows, map r_logl rows = lg ->
    (forall b, In b bs -> (b < length lg)%nat) ->
    dsum x (fold_left (fun l i => bump i l) bs rows) =
    dsum x rows + zsum (map (fun b => Z.b2z (nth b lg 0 <? x)) bs).
Proof.
  intros x lg. induction bs as [|i t IH]; intros rows Hlg H.
  - cbn [fold_left]. change (zsum (map (fun b => Z.b2z (nth b lg 0 <? x)) [])) with 0. lia.
  - cbn [fold_left map]. rewrite zsum_cons.
    assert (Hi : (i < length rows)%nat) by (specialize (H i (or_introl eq_refl)); subst lg; rewrite map_length in H; auto).
    rewrite IH by (rewrite ?bump_logl; auto; intros; apply H; right; auto).
    rewrite dsum_bump by auto. rewrite <- nth_logl by auto. rewrite Hlg. lia.
Qed.
Lemma zsum_b2z : forall A (p : A -> bool) l, zsum (map (fun x => Z.b2z (p x)) l) = Z.of_nat (length (filter p l)).
Proof.
  intros A p l. induction l as [|x t IH]; auto. cbn [map filter]. rewrite zsum_cons, IH.
  destruct (p x); cbn [Z.b2z length]; lia.
Qed.

(** Threads which may be repeated, each with strictly increasing logls, whose
    starts need not be on the contour of a point. *)
Theorem join_near : forall E l (w : world E), l <> [] ->
    (forall x, In x l -> ts_ok x) ->
    (forall x, In x l -> StronglySorted Z.lt (logl (fst x))) ->
    starts_above (ts_tmm l) (min_list (map r_logl (ts_rows l))) ->
    (forall x s b, In x l -> fst (snd (snd x)) = Fin s ->
       attached (map r_logl (sort_rows E (ts_rows l))) s b ->
       nth b (map r_logl (sort_rows E (ts_rows l))) 0 = nth 0 (logl (fst x)) 0 ->
       exists y, In y l /\ fst (snd (snd y)) = NInf /\ nth 0 (logl (fst x)) 0 < last (logl (fst y)) 0) ->
    exists r bs, combine_threads (map fst l) false w = (Ok r, w) /\
      length (nlive_array r) = length (logl r) /\ output r = None /\ settings r = None /\
      logl r = map r_logl (sort_rows E (ts_rows l)) /\
      Forall2 (attached (logl r)) (finite_starts (ts_tmm l)) bs /\
      (forall i, (i < length (logl r))%nat ->
         (forall j, (j < i)%nat -> nth j (logl r) 0 < nth i (logl r) 0) ->
         nth i (nlive_array r) 0 =
         Z.of_nat (countb (fun m => is_ninf (fst m)) (ts_tmm l)) +
         zsum (map (fun b => Z.b2z (nth b (logl r) 0 <? nth i (logl r) 0)) bs) -
         zsum (map (fun m => Z.b2z (snd m <? nth i (logl r) 0)) (ts_tmm l))) /\
      (finite_starts (ts_tmm l) = [] -> forall i, (S i < length (logl r))%nat ->
         nth (S i) (nlive_array r) 0 <= nth i (nlive_array r) 0).
Proof.
  intros E l w Hne Hok Hstr Hsa Hcov.
  assert (Htne : ts_rows l <> []).
  { intros Hn. destruct l as [|x t]; [congruence|]. pose proof (Hok x (or_introl eq_refl)) as Hx.
    destruct (thread_rows_cols _ _ _ Hx) as (R1 & _). unfold ts_rows in Hn. cbn [flat_map] in Hn.
    apply app_eq_nil in Hn as [Hn _]. rewrite Hn in R1. apply (at_ne _ _ _ Hx); auto. }
  destruct (combine_threads_near E l w Hne Htne Hok) as (bs & B1 & B2).
  cbv zeta in B1, B2. set (sorted := sort_rows E (ts_rows l)) in *.
  set (rows := fold_left (fun l i => bump i l) bs sorted) in *.
  assert (Hk : map key rows = map key sorted) by apply fold_bump_key.
  destruct (keys_cols _ _ Hk) as (K1 & K2 & K3).
  assert (Hlen : length rows = length sorted).
  { apply (f_equal (@length _)) in Hk. rewrite !map_length in Hk. auto. }
  assert (Hlg : Permutation (map r_logl rows) (map r_logl (ts_rows l))).
  { rewrite K1. apply Permutation_map, sort_rows_perm. }
  assert (Hs : StronglySorted Z.le (map r_logl rows)) by (rewrite K1; apply sort_rows_sorted).
  assert (Hrne : rows <> []).
  { intros Hn. rewrite Hn in Hlg. simpl in Hlg. apply Permutation_nil in Hlg.
    apply map_eq_nil in Hlg. auto. }
  assert (Hp : (0 < length sorted)%nat) by (rewrite <- Hlen; destruct rows; [congruence|simpl; lia]).
  assert (Hsa' : starts_above (ts_tmm l) (min_list (map r_logl rows))).
  { erewrite min_list_perm; eauto. intros H; apply map_eq_nil in H; auto. }
  pose proof (nl_pos E l Hok Hstr Hsa bs B1 Hcov) as Hnlp. fold sorted in Hnlp. fold rows in Hnlp.
  pose proof (nl_last E l Hok Hstr Hsa bs B1 Hcov Hp) as Hnll. fold sorted in Hnll. fold rows in Hnll.
  set (nl := nl_of (n_start rows (ts_tmm l)) (map r_dn rows)) in *.
  assert (Hnl : length nl = length rows) by (unfold nl; rewrite nl_of_length, map_length; auto).
  destruct (n_start_ninf rows (ts_tmm l) Hsa') as [Hn0 Hdup].
  assert (Hfirst : nth 0 nl 0 = n_start rows (ts_tmm l)).
  { unfold nl, nl_of. rewrite nth_map_seq by (rewrite map_length; lia).
    change (zsum (firstn 0 (map r_dn rows))) with 0. lia. }
  assert (Hd : dict_given_run_array rows (ts_tmm l) w =
               (Ok (mkRun (map r_logl rows) (map r_theta rows) nl (Some (map r_lab rows)) (Some (ts_tmm l)) None None), w)).
  { rewrite dict_run by (auto; lia). fold nl.
    replace (0 <? n_start rows (ts_tmm l)) with true
      by (symmetry; apply Z.ltb_lt; rewrite <- Hfirst; pose proof (Hnlp 0%nat Hp); lia).
    replace (0 <? min_list nl) with true.
    2: { symmetry. apply Z.ltb_lt. destruct (min_list_spec nl) as [Hin _].
         { intros H. rewrite H in Hnl. simpl in Hnl. lia. }
         destruct (In_nth _ _ 0 Hin) as (i & I1 & <-). specialize (Hnlp i ltac:(lia)). lia. }
    replace (last nl 0 =? 1) with true; auto.
    symmetry. apply Z.eqb_eq. rewrite last_nth, Hnl, Hlen. auto. }
  rewrite (wbind_run _ _ _ _ _ _ _ _ Hd) in B2. unfold wlift in B2.
  match type of B2 with context [drop_bad_threads ?x] =>
    destruct (drop_bad_any x) as (r & R1 & R2 & R3 & R4 & R5 & R6 & R7); try discriminate; auto end.
  rewrite R1 in B2. exists r, bs. cbn [logl theta nlive_array output settings] in R2, R3, R4, R5, R6.
  rewrite R2, R4, R5, R6. split; auto. split; [rewrite map_length; auto|]. split; auto. split; auto.
  split; auto. split; [rewrite K1; auto|]. split.
  - rewrite map_length. intros i Hi Hf. rewrite K1.
    assert (Hbl : forall b, In b bs -> (b < length (map r_logl sorted))%nat).
    { intros b Hb. clear - B1 Hb. induction B1 as [|s j ss js A H IH]; [destruct Hb|].
      destruct Hb as [->|Hb]; auto. apply A. }
    unfold nl. rewrite (nl_nth _ rows i); auto using sorted_rows.
    2: { intros j Hj. rewrite <- !nth_logl by lia. auto. }
    rewrite <- nth_logl by auto. rewrite K1.
    pose proof (fold_bump_near (nth i (map r_logl sorted) 0) (map r_logl sorted) bs sorted eq_refl Hbl) as Hds.
    fold rows in Hds. rewrite Hds.
    rewrite (dsum_perm _ sorted (ts_rows l)) by apply sort_rows_perm. rewrite ts_dsum by auto.
    rewrite Hn0. lia.
  - rewrite map_length. intros Hfin i Hi. unfold nl, nl_of.
    rewrite !nth_map_seq by (rewrite map_length; lia).
    assert (Hbs : bs = []) by (rewrite Hfin in B1; inversion B1; auto).
    rewrite (firstn_S_nth _ 0 (map r_dn rows) i) by (rewrite map_length; lia).
    rewrite zsum_app. change (zsum [nth i (map r_dn rows) 0]) with (nth i (map r_dn rows) 0 + 0).
    assert (Hdn : nth i (map r_dn rows) 0 <= 0); [|lia].
    assert (Hin : In (nth i (map r_dn rows) 0) (map r_dn (ts_rows l))).
    { assert (Hr : rows = sorted) by (unfold rows; rewrite Hbs; auto). rewrite Hr.
      apply (Permutation_in _ (Permutation_map r_dn (sort_rows_perm E (ts_rows l)))).
      apply nth_In. rewrite map_length. fold sorted. lia. }
    apply in_map_iff in Hin as [y [<- Hy]]. unfold ts_rows in Hy. apply in_flat_map in Hy as [x [Hx Hy]].
    destruct (thread_rows_cols _ _ _ (Hok x Hx)) as (_ & _ & C3 & _).
    apply (in_map r_dn) in Hy. rewrite C3 in Hy. apply in_app_or in Hy as [Hy|[<-|[]]]; [|lia].
    apply repeat_spec in Hy. lia.
Qed.

(** Threads which may be repeated, each with strictly increasing logls. *)
Theorem join_ties : forall E l (w : world E), l <> [] ->
    (forall x, In x l -> ts_ok x) ->
    (forall x, In x l -> StronglySorted Z.lt (logl (fst x))) ->
    (forall m e, In (Fin m, e) (ts_tmm l) -> In m (map r_logl (ts_rows l))) ->
    starts_above (ts_tmm l) (min_list (map r_logl (ts_rows l))) ->
    exists r, combine_threads (map fst l) false w = (Ok r, w) /\
      length (nlive_array r) = length (logl r) /\ output r = None /\ settings r = None /\
      (forall i, (i < length (logl r))%nat ->
         (forall j, (j < i)%nat -> nth j (logl r) 0 < nth i (logl r) 0) ->
         nth i (nlive_array r) 0 = Z.of_nat (live_at (ts_tmm l) (nth i (logl r) 0))) /\
      (finite_starts (ts_tmm l) = [] -> forall i, (S i < length (logl r))%nat ->
         nth (S i) (nlive_array r) 0 <= nth i (nlive_array r) 0).
Proof.
  intros E l w Hne Hok Hstr Hst Hsa.
  assert (Hex : forall s b, (exists e, In (Fin s, e) (ts_tmm l)) ->
            attached (map r_logl (sort_rows E (ts_rows l))) s b ->
            nth b (map r_logl (sort_rows E (ts_rows l))) 0 = s).
  { intros s b [e He] [_ [H|[H _]]]; auto. exfalso. apply H.
    apply (Permutation_in _ (Permutation_sym (Permutation_map _ (sort_rows_perm E (ts_rows l))))). eauto. }
  destruct (join_near E l w Hne Hok Hstr Hsa) as (r & bs & J1 & J2 & J3 & J4 & J5 & J6 & J7 & J8).
  { intros x s b Hx Hs Hb Heq. exfalso. rewrite (Hex s b) in Heq; auto.
    2: { exists (snd (snd (snd x))). rewrite <- Hs, <- surjective_pairing.
         apply in_map_iff. exists x. auto. }
    pose proof (at_first _ _ _ (Hok x Hx)) as Hab. rewrite Hs in Hab. simpl in Hab. apply Z.ltb_lt in Hab. lia. }
  exists r. split; auto. split; auto. split; auto. split; auto. split; auto.
  intros i Hi Hf. rewrite (J7 i Hi Hf).
  assert (Hsp : forall mm, In mm (ts_tmm l) -> starts_below (fst mm) (snd mm) = true).
  { intros mm Hin. unfold ts_tmm in Hin. apply in_map_iff in Hin as [x [<- Hx]].
    eapply thread_span_ok. apply (Hok x Hx). }
  pose proof (bal_live (ts_tmm l) (nth i (logl r) 0) Hsp) as Hb. rewrite bal_starts in Hb.
  assert (Hz : zsum (map (fun b => Z.b2z (nth b (logl r) 0 <? nth i (logl r) 0)) bs) =
               zsum (map (fun s => Z.b2z (s <? nth i (logl r) 0)) (finite_starts (ts_tmm l)))).
  { assert (Hall : forall s, In s (finite_starts (ts_tmm l)) -> exists e, In (Fin s, e) (ts_tmm l))
      by (intros; apply in_finite_starts; auto).
    generalize (nth i (logl r) 0). intros x. rewrite J5 in *. clear - J6 Hex Hall.
    induction J6 as [|s b ss bs A H IH]; auto. cbn [map]. rewrite !zsum_cons, IH by (intros; apply Hall; right; auto).
    rewrite (Hex s b); auto. apply Hall. left; auto. }
  rewrite Hz. lia.
Qed.
