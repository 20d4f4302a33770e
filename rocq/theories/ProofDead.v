(** C03 for distinct logls; run_dead_birth_array: C10, C11. *)
From Verif Require Import Base ModelRun ModelData ProofBase ProofMonad Spec SpecRun
     ProofThreads ProofBirth ProofRun ProofProcess.

(** ** Live points in terms of logls *)
Lemma countb_seq : forall A (d : A) p l,
    length (filter (fun j => p (nth j l d)) (seq 0 (length l))) = length (filter p l).
Proof.
  intros. rewrite <- (where_as_filter _ d), where_length, countb_filter. auto.
Qed.

Lemma alive_distinct : forall init s b i, well_formed init (points s) ->
    StronglySorted Z.le (map s_logl s) -> NoDup (map s_logl s) ->
    births_on_contours (map s_birth s) (map s_logl s) b -> (i < length s)%nat ->
    alive_before b i =
    length (filter (fun x => (s_birth x <? nth i (map s_logl s) 0) && (nth i (map s_logl s) 0 <=? s_logl x)) s).
Proof.
  intros init s b i Hwf Hs Hnd Hb Hi. unfold alive_before.
  rewrite <- (countb_seq _ samp0).
  assert (Hlb : length b = length s) by (destruct Hb as [Hb _]; rewrite Hb, map_length; auto).
  rewrite Hlb. f_equal. apply filter_ext_in. intros j Hj. apply in_seq in Hj.
  pose proof (distinct_births init s Hwf Hs b Hb Hnd j i) as H.
  rewrite map_length in H. specialize (H ltac:(lia) ltac:(lia)).
  assert (Hn : (i <= j)%nat <-> nth i (map s_logl s) 0 <= nth j (map s_logl s) 0).
  { split; intros Hx.
    - apply ssorted_le_nth_le; auto. rewrite map_length. lia.
    - destruct (le_lt_dec i j) as [|Hlt]; auto.
      assert (Hle : nth j (map s_logl s) 0 <= nth i (map s_logl s) 0).
      { apply ssorted_le_nth_le; auto. rewrite map_length. lia. }
      assert (He : nth i (map s_logl s) 0 = nth j (map s_logl s) 0) by lia.
      apply (proj1 (NoDup_nth (map s_logl s) 0)) in He; auto; rewrite ?map_length; lia. }
  rewrite (map_nth_in _ _ s_birth 0 samp0) in H by lia.
  rewrite (map_nth_in _ _ s_logl 0 samp0 s j) in Hn by lia.
  f_equal.
  - apply Bool.eq_iff_eq_true. rewrite !Z.ltb_lt. auto.
  - apply Bool.eq_iff_eq_true. rewrite Nat.leb_le, Z.leb_le. auto.
Qed.

Lemma filter_length_perm : forall A (p : A -> bool) l m,
    Permutation l m -> length (filter p l) = length (filter p m).
Proof. intros. rewrite <- !countb_filter. apply countb_perm; auto. Qed.

Theorem nlive_distinct : forall E init s r, well_formed init (points s) ->
    NoDup (map s_logl s) -> processed (sort_samps E s) r ->
    length (nlive_array r) = length s /\ length (logl r) = length s /\
    forall i, (i < length s)%nat ->
      nth i (nlive_array r) 0 = Z.of_nat (length (filter (fun x =>
         (s_birth x <? nth i (logl r) 0) && (nth i (logl r) 0 <=? s_logl x)) s)).
Proof.
  intros E init s r Hwf Hnd (P1 & P2 & _ & _ & b & labs & tmm & B1 & B2 & _ & _ & _ & _ & _ & B8 & B9).
  assert (Hl : length (sort_samps E s) = length s) by (apply Permutation_length, sort_samps_perm).
  assert (Hlr : length (logl r) = length s) by (rewrite P1, map_length; auto).
  split; [congruence|]. split; auto. intros i Hi. rewrite B9 by lia.
  rewrite (alive_distinct init (sort_samps E s)); auto; try lia.
  - rewrite P1. f_equal. apply filter_length_perm, sort_samps_perm.
  - apply (well_formed_perm _ (points s)); auto. symmetry. apply points_sort.
  - apply sort_samps_sorted.
  - apply (Permutation_NoDup (l := map s_logl s)); auto.
    apply Permutation_map. symmetry. apply sort_samps_perm.
Qed.

(** ** The dead-birth array *)
Definition set_init (init init' : Z) (x : samp) : samp :=
  mkSamp (s_theta x) (s_logl x) (if s_birth x =? init then init' else s_birth x).

Definition start_val (lg : list Z) (init' prev : Z) : Z :=
  if prev =? -1 then init' else nth (Z.to_nat prev) lg 0.

Lemma chain_samps : forall b lg th init' idx prev, chained b prev idx ->
    map (fun '(t, (l, b)) => mkSamp t l b)
        (combine (take [] th idx) (combine (take 0 lg idx)
                 (start_val lg init' prev :: but_last (take 0 lg idx)))) =
    map (fun j => mkSamp (nth j th []) (nth j lg 0) (start_val lg init' (nth j b 0))) idx.
Proof.
  intros b lg th init'. induction idx as [|j t IH]; intros prev H; auto.
  destruct H as [H1 H2]. rewrite <- H1. cbn [take map combine]. f_equal.
  destruct t as [|j' t']; auto.
  assert (Hsv : start_val lg init' (Z.of_nat j) = nth j lg 0).
  { unfold start_val. replace (Z.of_nat j =? -1) with false by (symmetry; apply Z.eqb_neq; lia).
    rewrite Nat2Z.id. auto. }
  rewrite <- (IH _ H2), Hsv. reflexivity.
Qed.

Lemma concat_flat_map : forall A B (f : A -> list B) l, concat (map f l) = flat_map f l.
Proof. induction l; simpl; congruence. Qed.
Lemma map_flat_map : forall A B C (f : B -> C) (g : A -> list B) l,
    map f (flat_map g l) = flat_map (fun a => map f (g a)) l.
Proof. induction l; simpl; auto. rewrite map_app, IHl. auto. Qed.

Theorem dead_birth_spec : forall E init init' s r da dw (w : world E),
    well_formed init (points s) -> processed (sort_samps E s) r ->
    (da = true -> NoDup (map s_logl s)) ->
    exists out w', run_dead_birth_array r init' da dw w = (Ok out, w') /\
      w_rng w' = w_rng w /\ (NoDup (map s_logl s) \/ dw = false -> w' = w) /\
      Permutation out (map (set_init init init') s) /\
      StronglySorted Z.le (map s_logl out).
Proof.
  intros E init init' s r da dw w Hwf Hp Hda.
  destruct (processed_consistent E init s r Hwf Hp) as (labs0 & tmm0 & Hcons & Hset).
  assert (Hndp : NoDup (logl r) <-> NoDup (map s_logl s)).
  { destruct Hp as [-> _]. split; apply Permutation_NoDup; apply Permutation_map;
      [|symmetry]; apply sort_samps_perm. }
  destruct (check_ns_run_accepts E r da dw w) as (w' & C1 & C2 & C3).
  { split; auto. eauto. }
  { intros. apply Hndp; auto. }
  unfold run_dead_birth_array. rewrite (wbind_run _ _ _ _ _ _ _ _ C1).
  rewrite (wbind_run _ _ _ _ _ _ _ _ (get_run_threads_spec E r labs0 tmm0 w' Hcons)).
  destruct Hp as (P1 & P2 & P3 & P4 & b & labs & tmm & B1 & B2 & B3 & B4 & B5 & B6 & B7 & B8 & B9).
  destruct Hcons as (K1 & K2 & K3).
  assert (labs0 = labs) by congruence. assert (tmm0 = tmm) by congruence. subst labs0 tmm0.
  pose proof (well_formed_perm _ _ _ (Permutation_sym (points_sort E s)) Hwf) as Hwf'.
  pose proof (sort_samps_sorted E s) as Hs. set (s' := sort_samps E s) in *.
  pose proof B1 as [Hbl B1']. rewrite map_length in Hbl, B1'.
  pose proof B4 as [Hll _].
  assert (Hpos : (0 < length s')%nat).
  { pose proof (wf_pos init s' Hwf') as H. rewrite map_length in H. auto. }
  assert (HT : (0 < length tmm)%nat).
  { specialize (proj1 (B6 (nth 0 labs 0)) ltac:(apply nth_In; lia)). lia. }
  set (ths := map (fun k => nth_thread r labs (Z.of_nat k) (nth k tmm (NInf, 0))) (seq 0 (length tmm))).
  assert (Hrows : concat (map (thread_samps init') ths) =
                  flat_map (fun k => map (fun j => set_init init init' (nth j s' samp0)) (thread_inds labs k))
                           (zrange (length tmm))).
  { unfold ths. rewrite concat_flat_map. unfold zrange. rewrite !flat_map_concat_map, !map_map. f_equal.
    apply map_ext_in. intros k Hk. apply in_seq in Hk.
    destruct (B7 k ltac:(lia)) as (f & l & F1 & F2 & F3). rewrite F3.
    assert (Hin : In (Z.of_nat k) labs) by (apply B6; lia).
    assert (Hf : f = hd 0%nat (thread_inds labs (Z.of_nat k)))
      by (apply (first_unique labs (Z.of_nat k)); auto; apply hd_first; auto).
    unfold thread_samps, nth_thread. cbn [get_tmm thread_min_max theta logl].
    pose proof (chained_inds b labs B2 B4 (Z.of_nat k)) as Hch. rewrite <- Hf in Hch.
    pose proof (chain_samps b (logl r) (theta r) init' _ _ Hch) as Hcs.
    assert (Hsv : match (if nth f b 0 =? -1 then NInf else Fin (nth (Z.to_nat (nth f b 0)) (map s_logl s') 0)) with
                  | NInf => init' | Fin z => z end = start_val (logl r) init' (nth f b 0)).
    { unfold start_val. rewrite P1. destruct (nth f b 0 =? -1); auto. }
    transitivity (map (fun j => mkSamp (nth j (theta r) []) (nth j (logl r) 0)
                                (start_val (logl r) init' (nth j b 0))) (thread_inds labs (Z.of_nat k))).
    - rewrite <- Hcs, <- Hsv. destruct (nth f b 0 =? -1); reflexivity.
    - apply map_ext_in. intros j Hj. apply where_label in Hj as [Hj _].
      rewrite P1, P2. rewrite (map_nth_in _ _ s_theta [] samp0) by lia.
      rewrite (map_nth_in _ _ s_logl 0 samp0) by lia. unfold set_init. f_equal.
      destruct (B1' j ltac:(lia)) as [Ba Bb].
      rewrite (wf_first init s' Hwf' Hs) in Ba, Bb.
      rewrite !(map_nth_in _ _ s_birth 0 samp0) in * by lia.
      unfold start_val. destruct (s_birth (nth j s' samp0) =? init) eqn:He.
      + apply Z.eqb_eq in He. rewrite (Ba He). auto.
      + apply Z.eqb_neq in He. destruct (Bb He) as [Bc Bd].
        replace (nth j b 0 =? -1) with false by (symmetry; apply Z.eqb_neq; lia). auto. }
  assert (Hperm : Permutation (concat (map (thread_samps init') ths)) (map (set_init init init') s)).
  { rewrite Hrows.
    transitivity (map (fun j => set_init init init' (nth j s' samp0)) (seq 0 (length labs))).
    - rewrite <- map_flat_map. apply Permutation_map. apply label_partition. intros x. apply B6.
    - rewrite Hll, Hbl. rewrite <- (map_map (fun j => nth j s' samp0) (set_init init init')).
      apply Permutation_map. rewrite <- (list_as_map _ samp0 s'). apply sort_samps_perm. }
  assert (Hths : ths <> []).
  { unfold ths. destruct (length tmm); [lia|discriminate]. }
  exists (sort_samps E (concat (map (thread_samps init') ths))), w'.
  split.
  { fold ths. destruct ths; [congruence|reflexivity]. }
  split; auto. split; [intros [H|H]; apply C3; [left; apply Hndp; auto|auto]|].
  split; [|apply sort_samps_sorted].
  rewrite sort_samps_perm. auto.
Qed.

(** ** Reprocessing *)
Lemma set_init_logl : forall i i' l, map s_logl (map (set_init i i') l) = map s_logl l.
Proof. intros. rewrite map_map. apply map_ext. auto. Qed.
Lemma set_init_theta : forall i i' l, map s_theta (map (set_init i i') l) = map s_theta l.
Proof. intros. rewrite map_map. apply map_ext. auto. Qed.

Lemma well_formed_set_init : forall init init' s, well_formed init (points s) ->
    (forall x, In x s -> init' < s_logl x) ->
    well_formed init' (points (map (set_init init init') s)).
Proof.
  intros init init' s [H1 H2] Hlt. split.
  - unfold points in *. destruct s; [auto|discriminate].
  - intros b l Hin. unfold points in *. rewrite map_map in Hin.
    apply in_map_iff in Hin as [x [Hx Hin]]. simpl in Hx. inversion Hx; subst.
    destruct (H2 (s_birth x) (s_logl x)) as (A1 & A2 & A3).
    { apply in_map_iff. exists x. auto. }
    destruct (s_birth x =? init) eqn:He.
    + split; [auto|]. split; auto.
    + apply Z.eqb_neq in He. split; auto. split; auto. right.
      destruct A3 as [A3|[b' A3]]; [congruence|].
      apply in_map_iff in A3 as [y [Hy Hiny]]. inversion Hy; subst.
      exists (if s_birth y =? init then init' else s_birth y). rewrite map_map.
      apply in_map_iff. exists y. simpl. rewrite H3. auto.
Qed.

Lemma key_sorted_perm_eq : forall l m, NoDup (map s_logl l) ->
    StronglySorted Z.le (map s_logl l) -> StronglySorted Z.le (map s_logl m) ->
    Permutation l m -> l = m.
Proof.
  intros l m Hnd Hl Hm Hp. rewrite ssorted_map in Hl, Hm.
  apply (ssorted_perm_eq _ (fun x y => s_logl x <= s_logl y)); auto.
  intros x y Hx Hy Hxy Hyx. destruct (In_nth _ _ samp0 Hx) as [i [Hi Hi']].
  destruct (In_nth _ _ samp0 Hy) as [j [Hj Hj']].
  assert (He : i = j).
  { apply (proj1 (NoDup_nth (map s_logl l) 0) Hnd); rewrite ?map_length; auto.
    rewrite !(map_nth_in _ _ _ 0 samp0) by auto. rewrite Hi', Hj'. lia. }
  congruence.
Qed.

Lemma alloc_unique : forall births births' logls b b', NoDup logls ->
    births_on_contours births logls b -> births_on_contours births' logls b' ->
    length births = length births' ->
    (forall i, (i < length births)%nat ->
       (nth i births 0 = nth 0 births 0 <-> nth i births' 0 = nth 0 births' 0) /\
       (nth i births 0 <> nth 0 births 0 -> nth i births' 0 = nth i births 0)) ->
    b = b'.
Proof.
  intros births births' logls b b' Hnd [H1 H2] [H3 H4] Hl H.
  apply nth_ext' with (d := 0); [congruence|]. rewrite H1. intros i Hi.
  destruct (H2 i Hi) as [A1 A2], (H4 i ltac:(lia)) as [A3 A4], (H i Hi) as [A5 A6].
  destruct (Z.eq_dec (nth i births 0) (nth 0 births 0)) as [He|Hne].
  - rewrite A1, A3; auto. apply A5; auto.
  - destruct (A2 Hne) as [B1 B2]. destruct A4 as [B3 B4]; [tauto|]. rewrite A6 in B4 by auto.
    assert (Z.to_nat (nth i b 0) = Z.to_nat (nth i b' 0)).
    { apply (proj1 (NoDup_nth logls 0) Hnd); try lia. }
    lia.
Qed.

Lemma processed_eq : forall s s' r r', processed s r -> processed s' r' ->
    map s_logl s = map s_logl s' -> map s_theta s = map s_theta s' ->
    NoDup (map s_logl s) -> length s = length s' ->
    (forall i, (i < length s)%nat ->
       (nth i (map s_birth s) 0 = nth 0 (map s_birth s) 0 <->
        nth i (map s_birth s') 0 = nth 0 (map s_birth s') 0) /\
       (nth i (map s_birth s) 0 <> nth 0 (map s_birth s) 0 ->
        nth i (map s_birth s') 0 = nth i (map s_birth s) 0)) ->
    r = r'.
Proof.
  intros s s' r r' (P1 & P2 & P3 & P4 & b & labs & tmm & B1 & B2 & B3 & B4 & B5 & B6 & B7 & B8 & B9)
         (P1' & P2' & P3' & P4' & b' & labs' & tmm' & B1' & B2' & B3' & B4' & B5' & B6' & B7' & B8' & B9')
         Hl Ht Hnd Hlen H.
  rewrite <- Hl in B1', B7'.
  assert (b = b').
  { eapply alloc_unique; eauto; rewrite !map_length; auto. }
  subst b'. assert (labs = labs') by (eapply canonical_unique; eauto). subst labs'.
  assert (HT : length tmm = length tmm').
  { destruct (Nat.lt_total (length tmm) (length tmm')) as [Hlt|[|Hlt]]; auto; exfalso.
    - assert (Hx : In (Z.of_nat (length tmm)) labs) by (apply B6'; lia). apply B6 in Hx. lia.
    - assert (Hx : In (Z.of_nat (length tmm')) labs) by (apply B6; lia). apply B6' in Hx. lia. }
  assert (tmm = tmm').
  { apply nth_ext' with (d := (NInf, 0)); auto. intros k Hk.
    destruct (B7 k Hk) as (f & l & F1 & F2 & ->). destruct (B7' k ltac:(lia)) as (f' & l' & F1' & F2' & ->).
    rewrite (first_unique _ _ _ _ F1 F1'), (last_unique _ _ _ _ F2 F2'). auto. }
  assert (nlive_array r = nlive_array r').
  { apply nth_ext' with (d := 0); [congruence|]. rewrite B8. intros i Hi.
    rewrite B9, B9' by congruence. auto. }
  destruct r, r'; simpl in *. congruence.
Qed.

Theorem reprocess : forall E init init' s r da dw (w : world E) out,
    well_formed init (points s) -> NoDup (map s_logl s) ->
    (forall x, In x s -> init' < s_logl x) ->
    processed (sort_samps E s) r ->
    Permutation out (map (set_init init init') s) ->
    exists w', process_samples_array out da dw w = (Ok r, w').
Proof.
  intros E init init' s r da dw w out Hwf Hnd Hlt Hp Hout.
  assert (Hwf2 : well_formed init' (points out)).
  { apply (well_formed_perm _ (points (map (set_init init init') s))).
    - apply Permutation_map. symmetry. auto.
    - apply well_formed_set_init; auto. }
  assert (Hnd2 : NoDup (map s_logl out)).
  { apply (Permutation_NoDup (l := map s_logl (map (set_init init init') s))).
    - apply Permutation_map. symmetry. auto.
    - rewrite set_init_logl. auto. }
  destruct (process_spec E init' out da dw w Hwf2 (fun _ => Hnd2)) as (r' & w' & H1 & H2 & H3).
  exists w'. rewrite H1. f_equal. f_equal. symmetry.
  assert (Hsorted : sort_samps E out = map (set_init init init') (sort_samps E s)).
  { apply key_sorted_perm_eq.
    - apply (Permutation_NoDup (l := map s_logl out)); auto.
      apply Permutation_map. symmetry. apply sort_samps_perm.
    - apply sort_samps_sorted.
    - rewrite set_init_logl. apply sort_samps_sorted.
    - rewrite (sort_samps_perm E out), Hout. apply Permutation_map. symmetry. apply sort_samps_perm. }
  pose proof (well_formed_perm _ _ _ (Permutation_sym (points_sort E s)) Hwf) as Hwf'.
  rewrite Hsorted in H3.
  apply (processed_eq (sort_samps E s) (map (set_init init init') (sort_samps E s))); auto.
  - rewrite set_init_logl. auto.
  - rewrite set_init_theta. auto.
  - apply (Permutation_NoDup (l := map s_logl s)); auto.
    apply Permutation_map. symmetry. apply sort_samps_perm.
  - rewrite map_length. auto.
  - intros i Hi. rewrite (wf_first init _ Hwf' (sort_samps_sorted E s)).
    assert (Hf' : nth 0 (map s_birth (map (set_init init init') (sort_samps E s))) 0 = init').
    { apply (wf_first init').
      - rewrite <- Hsorted. apply (well_formed_perm _ (points out)); auto. symmetry. apply points_sort.
      - rewrite set_init_logl. apply sort_samps_sorted. }
    rewrite Hf'. rewrite !map_map. rewrite !(map_nth_in _ _ _ 0 samp0) by auto.
    set (x := nth i (sort_samps E s) samp0). simpl.
    assert (Hx : In x s).
    { apply (Permutation_in _ (sort_samps_perm E s)). apply nth_In; auto. }
    destruct (s_birth x =? init) eqn:He.
    + apply Z.eqb_eq in He. split; [tauto|]. intros; congruence.
    + apply Z.eqb_neq in He. split; [|auto]. split; [congruence|]. intros He'. exfalso.
      destruct Hwf as [_ Hwf]. destruct (Hwf (s_birth x) (s_logl x)) as (_ & _ & Hc).
      { apply in_map_iff. exists x. auto. }
      destruct Hc as [Hc|[b' Hc]]; [congruence|].
      apply in_map_iff in Hc as [y [Hy Hiny]]. inversion Hy; subst.
      specialize (Hlt y Hiny). lia.
Qed.

Lemma process_dup : forall E s dw (w : world E) r w',
    process_samples_array s true dw w = (Ok r, w') -> NoDup (map s_logl s).
Proof.
  intros E s dw w r w' H. unfold process_samples_array in H.
  apply wbind_Ok in H as (b & w1 & H & _).
  unfold birth_inds_given_contours in H. apply wbind_Ok in H as (u & w2 & H & _).
  pose proof (check_logls_spec E (map s_logl (sort_samps E s)) true dw w) as Hc.
  rewrite H in Hc. eapply Permutation_NoDup; [|apply Hc; auto].
  apply Permutation_map. apply sort_samps_perm.
Qed.

Lemma process_returns : forall E init s da dw (w : world E) r w',
    well_formed init (points s) -> process_samples_array s da dw w = (Ok r, w') ->
    processed (sort_samps E s) r.
Proof.
  intros E init s da dw w r w' Hwf H.
  destruct (process_spec E init s da dw w Hwf) as (r2 & w2 & A1 & A2 & A3).
  - intros ->. apply (process_dup E s dw w r w' H).
  - rewrite A1 in H. inversion H; subst. auto.
Qed.

Lemma sorted_rows_perm : forall E s,
    Permutation (combine (map s_theta (sort_samps E s)) (map s_logl (sort_samps E s)))
                (map (fun x => (s_theta x, s_logl x)) s).
Proof.
  intros. rewrite <- (Permutation_map _ (sort_samps_perm E s)).
  generalize (sort_samps E s). intros l. induction l; simpl; auto.
Qed.
