(** process_samples_array: C03, C04. *)
From Verif Require Import Base ModelRun ModelData ProofBase ProofMonad Spec SpecRun
     ProofThreads ProofBirth ProofRun.

Lemma zsum_cons : forall x l, zsum (x :: l) = x + zsum l.
Proof. reflexivity. Qed.
Lemma last_any : forall A (l : list A) d d', l <> [] -> last l d = last l d'.
Proof.
  intros A l d d' H. rewrite !last_nth. apply nth_indep. destruct l; [congruence|simpl; lia].
Qed.

(** ** Threads are chains *)
Section Chain.
  Variables b labs : list Z.
  Hypothesis Hv : valid_births b.
  Hypothesis Hc : canonical_threads b labs.

  Lemma reach_bound : forall s x, reach b s x -> (s < length b)%nat -> (x < length b)%nat.
  Proof.
    intros s x H. induction H; auto. intros _. apply IHreach.
    apply (nxt_gt b Hv) in H. lia.
  Qed.

  Lemma reach_label : forall s x, reach b s x -> (s < length b)%nat -> nth x labs 0 = nth s labs 0.
  Proof.
    intros s x H. induction H; auto. intros Hs.
    pose proof (nxt_gt b Hv _ _ H). rewrite IHreach by lia.
    destruct Hc as (_ & Hcont & _). pose proof (nxt_not_start _ _ _ H) as Hns.
    rewrite (Hcont j) by (auto; lia). apply nxt_spec in H as (_ & He & _).
    rewrite He, Nat2Z.id. auto.
  Qed.

  Lemma start_label_inj : forall s s', starts_thread b s -> starts_thread b s' ->
      nth s labs 0 = nth s' labs 0 -> s = s'.
  Proof.
    intros s s' H H' He. destruct Hc as (_ & _ & starts & H1 & _ & H2 & _).
    apply H1 in H, H'. destruct (In_nth _ _ 0%nat H) as [k [Hk Hk']].
    destruct (In_nth _ _ 0%nat H') as [k2 [Hk2 Hk2']].
    pose proof (H2 k Hk) as E1. pose proof (H2 k2 Hk2) as E2. rewrite Hk' in E1. rewrite Hk2' in E2.
    assert (k = k2) by lia. congruence.
  Qed.

  Lemma label_root : forall i j, (i < length b)%nat -> (j < length b)%nat ->
      nth i labs 0 = nth j labs 0 ->
      exists s, starts_thread b s /\ reach b s i /\ reach b s j.
  Proof.
    intros i j Hi Hj He.
    destruct (root_exists b Hv i Hi) as (s & Hs & Hr).
    destruct (root_exists b Hv j Hj) as (s' & Hs' & Hr').
    exists s. split; auto. split; auto.
    replace s with s'; auto. apply start_label_inj; auto.
    rewrite <- (reach_label s i), <- (reach_label s' j); auto; [apply Hs'|apply Hs].
  Qed.

  Lemma reach_linear : forall s x, reach b s x -> forall y, reach b s y ->
      reach b x y \/ reach b y x.
  Proof.
    intros s x H. induction H as [c|c j x Hn Hr IH]; intros y Hy; auto.
    inversion Hy; subst.
    - right. econstructor; eauto.
    - apply IH. congruence.
  Qed.

  (** Consecutive points of a thread: each is born where the last one died. *)
  Lemma adjacent : forall x y, (x < y < length b)%nat -> nth x labs 0 = nth y labs 0 ->
      (forall z, (x < z < y)%nat -> nth z labs 0 <> nth x labs 0) ->
      nth y b 0 = Z.of_nat x.
  Proof.
    intros x y Hxy He Hz.
    destruct (label_root x y) as (s & Hs & Hx & Hy); auto; try lia.
    destruct (reach_linear _ _ Hx _ Hy) as [H|H].
    - inversion H; subst; [lia|].
      pose proof (nxt_gt b Hv _ _ H0) as Hg. pose proof (reach_le b Hv _ _ H1) as Hle.
      assert (Hl : nth j labs 0 = nth x labs 0).
      { apply reach_label; [econstructor; eauto; constructor|lia]. }
      destruct (Nat.eq_dec j y) as [->|Hne].
      + apply nxt_spec in H0. tauto.
      + exfalso. apply (Hz j); auto. lia.
    - apply (reach_le b Hv) in H. lia.
  Qed.

  Lemma first_starts : forall k f, first_of labs k f -> starts_thread b f.
  Proof.
    intros k f (H1 & H2 & H3). destruct Hc as (Hl & _).
    destruct (root_exists b Hv f ltac:(lia)) as (s & Hs & Hr).
    pose proof (reach_le b Hv _ _ Hr) as Hle. pose proof (reach_label _ _ Hr (proj1 Hs)) as He.
    destruct (Nat.eq_dec s f) as [->|Hne]; auto.
    exfalso. apply (H3 s); [lia|congruence].
  Qed.

  Fixpoint chained (prev : Z) (l : list nat) : Prop :=
    match l with
    | [] => True
    | j :: t => nth j b 0 = prev /\ chained (Z.of_nat j) t
    end.

  Lemma chained_inds : forall k, chained (nth (hd 0%nat (thread_inds labs k)) b 0) (thread_inds labs k).
  Proof.
    intros k.
    assert (Hgen : forall l p, StronglySorted lt (p :: l) ->
              (forall z, In z (p :: l) -> (z < length b)%nat /\ nth z labs 0 = k) ->
              (forall z, (p < z < length b)%nat -> nth z labs 0 = k -> In z l) ->
              chained (Z.of_nat p) l).
    { induction l as [|j t IH]; intros p Hs Hin Hall; simpl; auto.
      inversion Hs; subst. inversion H1; subst. rewrite Forall_forall in H2, H4.
      assert (Hpj : (p < j)%nat) by (apply H2; left; auto).
      split.
      - apply adjacent.
        + split; auto. apply Hin. right; left; auto.
        + rewrite (proj2 (Hin p (or_introl eq_refl))), (proj2 (Hin j (or_intror (or_introl eq_refl)))). auto.
        + intros z Hz Hl. rewrite (proj2 (Hin p (or_introl eq_refl))) in Hl.
          assert (Hj : (j < length b)%nat) by (apply Hin; right; left; auto).
          destruct (Hall z ltac:(lia) Hl) as [->|Hzt]; [lia|].
          apply H4 in Hzt. lia.
      - apply IH; auto.
        + intros z Hz. apply Hin. right. auto.
        + intros z Hz Hl. destruct (Hall z ltac:(lia) Hl) as [->|]; auto. lia. }
    pose proof (where_sorted _ (Z.eqb k) labs) as Hs.
    pose proof (where_label k labs) as Hin.
    assert (Hlen : length labs = length b) by apply Hc.
    unfold thread_inds. destruct (where_ (Z.eqb k) labs) as [|h t]; simpl; auto.
    split; auto. apply Hgen; auto.
    - intros z Hz. rewrite <- Hlen. apply Hin; auto.
    - intros z Hz Hl. assert (Hz' : In z (h :: t)) by (apply Hin; split; auto; lia).
      destruct Hz' as [->|]; auto. lia.
  Qed.

  (** Telescoping along a chain. *)
  Lemma chained_sum : forall i l prev, chained prev l ->
      zsum (map (fun j => Z.b2z (nth j b 0 <? i) - Z.b2z (Z.of_nat j <? i)) l) =
      Z.b2z (prev <? i) - Z.b2z (last (map Z.of_nat l) prev <? i).
  Proof.
    intros i. induction l as [|j t IH]; intros prev H; [simpl; unfold zsum; simpl; lia|].
    destruct H as [H1 H2]. cbn [map]. rewrite zsum_cons, (IH _ H2), H1.
    destruct t as [|j' t']; [simpl; lia|].
    change (last (Z.of_nat j :: map Z.of_nat (j' :: t')) prev) with (last (map Z.of_nat (j' :: t')) prev).
    rewrite (last_any _ (map Z.of_nat (j' :: t')) (Z.of_nat j) prev) by discriminate. lia.
  Qed.

  Lemma chain_count : forall k i, In k labs ->
      zsum (map (fun j => Z.b2z (nth j b 0 <? i) - Z.b2z (Z.of_nat j <? i)) (thread_inds labs k)) =
      Z.b2z (nth (hd 0%nat (thread_inds labs k)) b 0 <? i)
      - Z.b2z (Z.of_nat (last (thread_inds labs k) 0%nat) <? i).
  Proof.
    intros k i Hk. rewrite (chained_sum i _ _ (chained_inds k)). do 3 f_equal.
    assert (Hne : thread_inds labs k <> []).
    { destruct (In_nth _ _ 0 Hk) as [j [Hj He]]. intros Hn.
      assert (Hc' : In j (thread_inds labs k)) by (apply where_label; auto).
      rewrite Hn in Hc'. auto. }
    rewrite !last_nth, map_length. apply map_nth_in.
    destruct (thread_inds labs k); [congruence|simpl; lia].
  Qed.
End Chain.

(** ** Partition of the points by label *)
Lemma filter_split_perm : forall A (p : A -> bool) l,
    Permutation l (filter p l ++ filter (fun x => negb (p x)) l).
Proof.
  induction l as [|x t IH]; simpl; auto. destruct (p x); simpl.
  - constructor. auto.
  - rewrite IH at 1. apply Permutation_middle.
Qed.
Lemma partition_perm : forall A (key : A -> Z) ks l, NoDup ks ->
    (forall x, In x l -> In (key x) ks) ->
    Permutation (flat_map (fun k => filter (fun x => k =? key x) l) ks) l.
Proof.
  induction ks as [|k ks IH]; intros l Hnd Hin; simpl.
  - destruct l as [|x t]; auto. destruct (Hin x (or_introl eq_refl)).
  - inversion Hnd; subst. symmetry.
    rewrite (filter_split_perm _ (fun x => k =? key x) l) at 1.
    apply Permutation_app_head. symmetry.
    rewrite <- (IH (filter (fun x => negb (k =? key x)) l)); auto.
    + assert (Hf : forall ks', ~ In k ks' ->
        flat_map (fun k0 => filter (fun x => k0 =? key x) l) ks' =
        flat_map (fun k0 => filter (fun x => k0 =? key x) (filter (fun x => negb (k =? key x)) l)) ks').
      { induction ks' as [|k' ks' IH']; intros Hk; simpl; auto. rewrite IH' by (simpl in Hk; tauto). f_equal.
        assert (k <> k') by (simpl in Hk; intuition).
        clear - H. induction l as [|x t IHt]; simpl; auto.
        destruct (k =? key x) eqn:H1; simpl.
        - apply Z.eqb_eq in H1. replace (k' =? key x) with false; auto.
          symmetry. apply Z.eqb_neq. congruence.
        - destruct (k' =? key x); simpl; rewrite IHt; auto. }
      rewrite <- Hf; auto.
    + intros x Hx. apply filter_In in Hx as [Hx Hk]. destruct (Hin x Hx) as [->|]; auto.
      rewrite Z.eqb_refl in Hk. discriminate.
Qed.

Lemma where_as_filter : forall A (d : A) p l,
    where_ p l = filter (fun i => p (nth i l d)) (seq 0 (length l)).
Proof.
  intros A d p l. unfold where_.
  assert (H : forall k, where_from p k l = filter (fun i => p (nth (i - k) l d)) (seq k (length l))).
  { induction l as [|x t IH]; intros k; simpl; auto. rewrite Nat.sub_diag. rewrite (IH (S k)).
    assert (He : filter (fun i => p (nth (i - S k) t d)) (seq (S k) (length t)) =
                 filter (fun i => p match (i - k)%nat with 0%nat => x | S m => nth m t d end)
                        (seq (S k) (length t))).
    { apply filter_ext_in. intros i Hi. apply in_seq in Hi.
      replace (i - k)%nat with (S (i - S k)) by lia. auto. }
    rewrite He. destruct (p x); auto. }
  rewrite (H 0%nat). apply filter_ext. intros. rewrite Nat.sub_0_r. auto.
Qed.

Lemma zsum_perm : forall l m, Permutation l m -> zsum l = zsum m.
Proof. unfold zsum. intros l m H. induction H; simpl; lia. Qed.

Lemma label_partition : forall labs T,
    (forall x, In x labs -> 0 <= x < Z.of_nat T) ->
    Permutation (flat_map (thread_inds labs) (zrange T)) (seq 0 (length labs)).
Proof.
  intros labs T H.
  replace (flat_map (thread_inds labs) (zrange T)) with
      (flat_map (fun k => filter (fun i => k =? nth i labs 0) (seq 0 (length labs))) (zrange T)).
  - apply (partition_perm nat (fun i => nth i labs 0)).
    + rewrite <- (unique_zrange (zrange T) T); [apply unique_NoDup|]. apply in_zrange.
    + intros i Hi. apply in_seq in Hi. apply in_zrange, H, nth_In. lia.
  - apply flat_map_ext. intros k. unfold thread_inds. rewrite (where_as_filter _ 0). auto.
Qed.

Lemma zsum_flat_map : forall A B (f : B -> Z) (g : A -> list B) l,
    zsum (map f (flat_map g l)) = zsum (map (fun a => zsum (map f (g a))) l).
Proof.
  induction l as [|x t IH]; simpl; auto. rewrite map_app, zsum_app, IH. auto.
Qed.

(** ** The loop over labels *)
Lemma add_at_length : forall k v d, length (add_at k v d) = length d.
Proof. intros. apply upd_length. Qed.
Lemma firstn_sum_upd : forall d k v m, (k < length d)%nat ->
    zsum (firstn m (upd k (nth k d 0 + v) d)) = zsum (firstn m d) + (if (k <? m)%nat then v else 0).
Proof.
  unfold zsum. induction d as [|x t IH]; intros k v m Hk; [simpl in Hk; lia|].
  destruct k as [|k]; destruct m as [|m]; simpl; try lia.
  simpl in Hk. specialize (IH k v m ltac:(lia)). simpl in IH. rewrite IH.
  change (S k <? S m)%nat with (k <? m)%nat. lia.
Qed.
Lemma add_at_sum : forall d k v m, (k < length d)%nat ->
    zsum (firstn m (add_at k v d)) = zsum (firstn m d) + (if (k <? m)%nat then v else 0).
Proof. intros. apply firstn_sum_upd; auto. Qed.

Section Steps.
  Variables lg bi labs : list Z.
  Hypothesis Hlab : length labs = length bi.
  Hypothesis Hlg : length lg = length bi.
  Hypothesis Hv : valid_births bi.
  Hypothesis Hne : bi <> [].
  Let n := length bi.

  Definition span_of (k : Z) : ext * Z :=
    let f := hd 0%nat (thread_inds labs k) in
    let l := last (thread_inds labs k) 0%nat in
    (if nth f bi 0 =? -1 then NInf else Fin (nth (Z.to_nat (nth f bi 0)) lg 0), nth l lg 0).

  Lemma first_birth : nth 0 bi 0 = -1.
  Proof.
    assert (0 < length bi)%nat by (destruct bi; [congruence|simpl; lia]).
    specialize (Hv 0%nat H). lia.
  Qed.

  Lemma thread_step_ok : forall tmm delta k, In k labs -> length delta = S n ->
      exists delta', thread_step lg bi labs (tmm, delta) k = Ok (tmm ++ [span_of k], delta') /\
        length delta' = S n /\
        forall i, (i < n)%nat -> zsum (firstn (S i) delta') = zsum (firstn (S i) delta) +
          Z.b2z (nth (hd 0%nat (thread_inds labs k)) bi 0 <? Z.of_nat i)
          - Z.b2z (Z.of_nat (last (thread_inds labs k) 0%nat) <? Z.of_nat i).
  Proof.
    intros tmm delta k Hk Hd. unfold thread_step, span_of. fold (thread_inds labs k).
    rewrite first_birth.
    pose proof (hd_first k labs Hk) as (F1 & F2 & _). pose proof (last_last k labs Hk) as (L1 & L2 & _).
    fold (thread_inds labs k) in *.
    set (f := hd 0%nat (thread_inds labs k)) in *. set (l := last (thread_inds labs k) 0%nat) in *.
    rewrite Hlab in F1, L1. pose proof (Hv f F1) as Hvf. unfold n in *.
    assert (Hl' : forall i, (if (l + 1 <? S i)%nat then -1 else 0) = - Z.b2z (Z.of_nat l <? Z.of_nat i)).
    { intros i. destruct (l + 1 <? S i)%nat eqn:H1, (Z.of_nat l <? Z.of_nat i) eqn:H2; simpl; auto;
        rewrite ?Nat.ltb_lt, ?Nat.ltb_ge, ?Z.ltb_lt, ?Z.ltb_ge in *; lia. }
    destruct (nth f bi 0 =? -1) eqn:He.
    - apply Z.eqb_eq in He. eexists. split; [reflexivity|]. split; [rewrite !add_at_length; auto|].
      intros i Hi. rewrite add_at_sum by (rewrite add_at_length; lia). rewrite add_at_sum by lia.
      rewrite Hl', He. replace (-1 <? Z.of_nat i) with true by (symmetry; apply Z.ltb_lt; lia).
      change (0 <? S i)%nat with true. change (Z.b2z true) with 1. cbv iota. lia.
    - apply Z.eqb_neq in He. replace (0 <=? nth f bi 0) with true by (symmetry; apply Z.leb_le; lia).
      cbn [assertb rbind]. eexists. split; [reflexivity|]. split; [rewrite !add_at_length; auto|].
      intros i Hi. rewrite add_at_sum by (rewrite add_at_length; lia). rewrite add_at_sum by lia.
      rewrite Hl'.
      destruct (Z.to_nat (nth f bi 0%Z) + 1 <? S i)%nat eqn:H1, (nth f bi 0 <? Z.of_nat i) eqn:H2; simpl; try lia;
        rewrite ?Nat.ltb_lt, ?Nat.ltb_ge, ?Z.ltb_lt, ?Z.ltb_ge in *; lia.
  Qed.

  Lemma fold_steps : forall ks tmm delta, (forall k, In k ks -> In k labs) -> length delta = S n ->
      exists delta', foldM (thread_step lg bi labs) ks (tmm, delta) = Ok (tmm ++ map span_of ks, delta') /\
        length delta' = S n /\
        forall i, (i < n)%nat -> zsum (firstn (S i) delta') = zsum (firstn (S i) delta) +
          zsum (map (fun k => Z.b2z (nth (hd 0%nat (thread_inds labs k)) bi 0 <? Z.of_nat i)
          - Z.b2z (Z.of_nat (last (thread_inds labs k) 0%nat) <? Z.of_nat i)) ks).
  Proof.
    induction ks as [|k t IH]; intros tmm delta Hin Hd; cbn [foldM map].
    - exists delta. rewrite app_nil_r. split; auto. split; auto. intros. unfold zsum at 3. cbn [fold_right]. lia.
    - destruct (thread_step_ok tmm delta k (Hin k (or_introl eq_refl)) Hd) as (d1 & H1 & H2 & H3).
      rewrite H1. cbn [rbind].
      destruct (IH (tmm ++ [span_of k]) d1 (fun x Hx => Hin x (or_intror Hx)) H2) as (d2 & H4 & H5 & H6).
      exists d2. rewrite H4, <- app_assoc. split; auto. split; auto.
      intros i Hi. rewrite H6, H3 by auto. rewrite zsum_cons. lia.
  Qed.
End Steps.

Lemma alive_sum : forall b i, valid_births b -> (i < length b)%nat ->
    zsum (map (fun j => Z.b2z (nth j b 0 <? Z.of_nat i) - Z.b2z (Z.of_nat j <? Z.of_nat i))
              (seq 0 (length b))) = Z.of_nat (alive_before b i).
Proof.
  intros b i Hv Hi. unfold alive_before.
  assert (Hb : forall j, In j (seq 0 (length b)) -> nth j b 0 < Z.of_nat j).
  { intros j Hj. apply in_seq in Hj. apply (Hv j); lia. }
  revert Hb. generalize (seq 0 (length b)) as l.
  induction l as [|j t IH]; intros Hb; [reflexivity|].
  cbn [map filter]. rewrite zsum_cons, (IH (fun x Hx => Hb x (or_intror Hx))). specialize (Hb j (or_introl eq_refl)).
  destruct (nth j b 0 <? Z.of_nat i) eqn:H1, (Z.of_nat j <? Z.of_nat i) eqn:H2, (i <=? j)%nat eqn:H3;
    cbn [andb Z.b2z length]; rewrite ?Nat.leb_le, ?Nat.leb_gt, ?Z.ltb_lt, ?Z.ltb_ge in *; lia.
Qed.

(** From birth indexes on. *)
Lemma process_tail : forall E lg th bi (w : world E), valid_births bi -> bi <> [] ->
    length lg = length bi -> length th = length bi ->
    exists labs tmm nl,
      (let* labs := threads_given_birth_inds bi in
       let uniq := unique labs in
       let* _ := wassert (list_eqb uniq (zrange (length uniq))) in
       let* st := wlift (foldM (thread_step lg bi labs) uniq
                               ([], repeat 0 (S (length th)))) in
       let '(tmm, delta) := st in
       wret (mkRun lg th (but_last (cumsum delta)) (Some labs) (Some tmm) None None)) w =
      (Ok (mkRun lg th nl (Some labs) (Some tmm) None None), w) /\
      canonical_threads bi labs /\
      (exists T, tmm = map (span_of lg bi labs) (zrange T) /\
                 forall x, In x labs <-> 0 <= x < Z.of_nat T) /\
      length nl = length lg /\
      (forall i, (i < length lg)%nat -> nth i nl 0 = Z.of_nat (alive_before bi i)).
Proof.
  intros E lg th bi w Hv Hne Hlg Hth.
  destruct (threads_canonical bi Hv E w Hne) as (labs & H1 & Hc).
  pose proof Hc as (Hll & _ & starts & _ & _ & _ & Hrange).
  set (T := length starts) in *.
  assert (Hu : unique labs = zrange T) by (apply unique_zrange; auto).
  destruct (fold_steps lg bi labs Hll Hlg Hv Hne (zrange T) [] (repeat 0 (S (length th))))
    as (delta & F1 & F2 & F3).
  { intros k Hk. apply Hrange. apply in_zrange; auto. }
  { rewrite repeat_length. lia. }
  exists labs, (map (span_of lg bi labs) (zrange T)), (but_last (cumsum delta)).
  split; [|split; [|split; [|split]]]; auto.
  - rewrite (wbind_run _ _ _ _ _ _ _ _ H1). cbv zeta. rewrite Hu, zrange_length.
    rewrite (wbind_run _ _ _ _ _ _ _ _ (wassert_true E _ w (proj2 (list_eqb_eq _ _) eq_refl))).
    unfold wbind, wlift. rewrite F1. reflexivity.
  - exists T. auto.
  - rewrite but_last_length, cumsum_length, F2. simpl. auto.
  - intros i Hi. rewrite but_last_nth by (rewrite cumsum_length, F2; lia).
    rewrite cumsum_nth by lia. rewrite F3 by lia.
    assert (H0 : forall m k, zsum (firstn m (repeat 0 k)) = 0).
    { unfold zsum. induction m; destruct k; simpl; auto. }
    rewrite H0. rewrite <- alive_sum by (auto; lia).
    rewrite <- Hll.
    rewrite <- (zsum_perm _ _ (Permutation_map _ (label_partition labs T (fun x Hx => proj1 (Hrange x) Hx)))).
    rewrite zsum_flat_map.
    assert (Hm : forall l, (forall k, In k l -> In k labs) ->
       map (fun k => Z.b2z (nth (hd 0%nat (thread_inds labs k)) bi 0 <? Z.of_nat i)
          - Z.b2z (Z.of_nat (last (thread_inds labs k) 0%nat) <? Z.of_nat i)) l =
       map (fun a => zsum (map (fun j => Z.b2z (nth j bi 0 <? Z.of_nat i) - Z.b2z (Z.of_nat j <? Z.of_nat i))
                               (thread_inds labs a))) l).
    { intros l Hl. apply map_ext_in. intros k Hk. rewrite (chain_count bi labs Hv Hc); auto. }
    rewrite Hm; [lia|]. intros k Hk. apply Hrange, in_zrange; auto.
Qed.

(** ** Well formed samples arrays *)
Definition points (s : list samp) : list (Z * Z) := map (fun x => (s_birth x, s_logl x)) s.

Lemma sort_samps_perm : forall E s, Permutation (sort_samps E s) s.
Proof. intros. apply (sort_by_perm _ E samp0 s_logl). Qed.
Lemma sort_samps_sorted : forall E s, StronglySorted Z.le (map s_logl (sort_samps E s)).
Proof.
  intros. apply (sort_by_sorted _ E samp0 s_logl).
Qed.

Lemma points_sort : forall E s, Permutation (points (sort_samps E s)) (points s).
Proof. intros. apply Permutation_map, sort_samps_perm. Qed.
Lemma well_formed_perm : forall init p q, Permutation p q -> well_formed init p -> well_formed init q.
Proof.
  intros init p q Hp [H1 H2]. split.
  - intros ->. apply H1. apply Permutation_nil. symmetry; auto.
  - intros b l Hin. apply (Permutation_in _ (Permutation_sym Hp)) in Hin.
    destruct (H2 b l Hin) as (A1 & A2 & A3). split; auto. split; auto.
    destruct A3 as [|[b' Hb']]; auto. right. exists b'. eapply Permutation_in; eauto.
Qed.

Section WF.
  Variable init : Z.
  Variable s : list samp.   (* already sorted *)
  Hypothesis Hwf : well_formed init (points s).
  Hypothesis Hsort : StronglySorted Z.le (map s_logl s).
  Let births := map s_birth s.
  Let logls := map s_logl s.

  Lemma wf_len : length births = length logls.
  Proof. unfold births, logls. rewrite !map_length. auto. Qed.
  Lemma wf_pt : forall i, (i < length logls)%nat -> In (nth i births 0, nth i logls 0) (points s).
  Proof.
    intros i Hi. unfold logls, births, points in *. rewrite map_length in Hi.
    rewrite !(map_nth_in _ _ _ 0 samp0) by auto.
    apply in_map_iff. exists (nth i s samp0). split; auto. apply nth_In; auto.
  Qed.
  Lemma wf_ne : births <> [].
  Proof.
    destruct Hwf as [H _]. unfold births, points in *. destruct s; [simpl in *; congruence|discriminate].
  Qed.
  Lemma wf_pos : (0 < length logls)%nat.
  Proof. rewrite <- wf_len. pose proof wf_ne. destruct births; [congruence|simpl; lia]. Qed.
  Lemma wf_lt : forall i, (i < length logls)%nat -> nth i births 0 < nth i logls 0.
  Proof. intros i Hi. apply Hwf. apply wf_pt; auto. Qed.
  Lemma wf_init_lt : forall i, (i < length logls)%nat -> init < nth i logls 0.
  Proof. intros i Hi. destruct Hwf as [_ H]. apply (H _ _ (wf_pt i Hi)). Qed.
  Lemma wf_cases : forall i, (i < length logls)%nat ->
      nth i births 0 = init \/ exists j, (j < length logls)%nat /\ nth j logls 0 = nth i births 0.
  Proof.
    intros i Hi. destruct Hwf as [_ H]. destruct (H _ _ (wf_pt i Hi)) as (_ & _ & [Hc|[b' Hc]]); auto.
    right. unfold points in Hc. apply in_map_iff in Hc as [x [Hx Hin]]. inversion Hx; subst.
    destruct (In_nth _ _ samp0 Hin) as [j [Hj He]]. exists j. unfold logls.
    rewrite map_length. split; auto. rewrite (map_nth_in _ _ _ 0 samp0) by auto. rewrite He. auto.
  Qed.
  Lemma wf_first : nth 0 births 0 = init.
  Proof.
    destruct (wf_cases 0%nat wf_pos) as [|[j [Hj He]]]; auto.
    pose proof (wf_lt 0%nat wf_pos).
    assert (nth 0 logls 0 <= nth j logls 0) by (apply ssorted_le_nth_le; auto; lia). lia.
  Qed.

  Lemma wf_birth_inds : forall E da dw (w : world E), (da = true -> NoDup logls) ->
      exists b w', birth_inds_given_contours births logls da dw w = (Ok b, w') /\
        births_on_contours births logls b /\ valid_births b /\ b <> [] /\
        w_rng w' = w_rng w /\
        (NoDup logls \/ dw = false -> enough births logls -> w' = w).
  Proof.
    intros E da dw w Hda. pose proof (birth_inds_spec births logls wf_len E da dw w) as Hs.
    destruct (birth_inds_given_contours births logls da dw w) as [[b|e] w'] eqn:Hb.
    - exists b, w'. destruct Hs as (S1 & _ & _ & S2 & _ & S3 & S4).
      pose proof (births_returned E births logls da dw w b w' wf_len Hb) as Hon.
      split; auto. split; auto. split.
      + intros i Hi. destruct Hon as [_ Hon]. rewrite S1 in Hi. specialize (Hon i Hi).
        destruct Hon as [O1 O2]. destruct (Z.eq_dec (nth i births 0) (nth 0 births 0)) as [He|Hne].
        * rewrite O1 by auto. lia.
        * destruct (O2 Hne) as [O3 O4]. split; [lia|].
          rewrite wf_len in Hi. pose proof (wf_lt i Hi) as Hlt.
          destruct (Z_lt_le_dec (nth i b 0) (Z.of_nat i)) as [|Hge]; auto. exfalso.
          assert (nth i logls 0 <= nth (Z.to_nat (nth i b 0%Z)) logls 0).
          { apply ssorted_le_nth_le; auto. lia. }
          lia.
      + split; auto. intros ->. simpl in S1. pose proof wf_ne.
        destruct births; [congruence|discriminate].
    - exfalso. destruct Hs as [H|[H|[[H1 H2]|[H|H]]]].
      + apply wf_ne; auto.
      + apply H; auto.
      + apply H2, Hda; auto.
      + apply H. intros i Hi. rewrite wf_len in Hi. pose proof (wf_lt i Hi). lia.
      + apply H. intros i Hi Hne. rewrite wf_len in Hi. split.
        * destruct (wf_cases i Hi) as [Hc|[j [Hj He]]]; [rewrite wf_first in Hne; congruence|].
          intros Hn. assert (Hin : In j (deaths_on (nth i births 0) logls)).
          { apply (in_where _ _ 0). split; auto. apply Z.eqb_eq. auto. }
          rewrite Hn in Hin. auto.
        * intros _. left. intros d Hd. apply (in_where _ _ 0) in Hd as [Hd He].
          apply Z.eqb_eq in He. pose proof (wf_lt d Hd). lia.
  Qed.

  (** With distinct logls every birth index is determined. *)
  Lemma distinct_births : forall b, births_on_contours births logls b -> NoDup logls ->
      forall i j, (i < length logls)%nat -> (j < length logls)%nat ->
      (nth i b 0 < Z.of_nat j <-> nth i births 0 < nth j logls 0).
  Proof.
    intros b [Hl Hb] Hnd i j Hi Hj. rewrite wf_len in Hb. destruct (Hb i Hi) as [B1 B2].
    assert (Hstrict : forall x y, (x < length logls)%nat -> (y < length logls)%nat ->
              ((x < y)%nat <-> nth x logls 0 < nth y logls 0)).
    { intros x y Hx Hy. assert (Hle : forall u v, (u <= v < length logls)%nat -> nth u logls 0 <= nth v logls 0).
      { intros. apply ssorted_le_nth_le; auto. }
      split; intros H.
      - assert (nth x logls 0 <> nth y logls 0).
        { intros He. apply (proj1 (NoDup_nth logls 0)) in He; auto. lia. }
        specialize (Hle x y ltac:(lia)). lia.
      - destruct (le_lt_dec y x) as [Hxy|]; auto. specialize (Hle y x ltac:(lia)). lia. }
    destruct (Z.eq_dec (nth i births 0) (nth 0 births 0)) as [He|Hne].
    - rewrite (B1 He). rewrite He, wf_first. pose proof (wf_init_lt j Hj). split; intros; lia.
    - destruct (B2 Hne) as [B3 B4]. rewrite <- B4.
      rewrite <- Hstrict by lia. lia.
  Qed.
End WF.

(** The result of processing: the columns of the sorted samples, the canonical
    threads of an allocation of births to contours, the count of live points
    and the span of each thread. *)
Definition processed (s : list samp) (r : run) : Prop :=
  logl r = map s_logl s /\ theta r = map s_theta s /\
  output r = None /\ settings r = None /\
  exists b labs tmm,
    births_on_contours (map s_birth s) (map s_logl s) b /\ valid_births b /\
    thread_labels r = Some labs /\ canonical_threads b labs /\
    thread_min_max r = Some tmm /\
    (forall x, In x labs <-> 0 <= x < Z.of_nat (length tmm)) /\
    (forall k, (k < length tmm)%nat ->
       thread_span (map s_logl s) b labs (Z.of_nat k) (nth k tmm (NInf, 0))) /\
    length (nlive_array r) = length (logl r) /\
    (forall i, (i < length (logl r))%nat ->
       nth i (nlive_array r) 0 = Z.of_nat (alive_before b i)).

Theorem process_spec : forall E init s da dw (w : world E),
    well_formed init (points s) -> (da = true -> NoDup (map s_logl s)) ->
    exists r w', process_samples_array s da dw w = (Ok r, w') /\ w_rng w' = w_rng w /\
                 processed (sort_samps E s) r.
Proof.
  intros E init s da dw w Hwf Hda.
  pose proof (well_formed_perm _ _ _ (Permutation_sym (points_sort E s)) Hwf) as Hwf'.
  pose proof (sort_samps_sorted E s) as Hs. unfold process_samples_array.
  set (s' := sort_samps E s) in *.
  destruct (wf_birth_inds init s' Hwf' Hs E da dw w) as (b & w' & H1 & H2 & H3 & H4 & H5 & _).
  { intros Hd. specialize (Hda Hd). eapply Permutation_NoDup; [|exact Hda].
    apply Permutation_map. symmetry. apply sort_samps_perm. }
  rewrite (wbind_run _ _ _ _ _ _ _ _ H1).
  assert (Hlen : length b = length s') by (destruct H2 as [H2 _]; rewrite H2, map_length; auto).
  destruct (process_tail E (map s_logl s') (map s_theta s') b w' H3 H4) as (labs & tmm & nl & P1 & P2 & P3 & P4 & P5).
  { rewrite map_length; auto. }
  { rewrite map_length; auto. }
  rewrite map_length in P1.
  exists (mkRun (map s_logl s') (map s_theta s') nl (Some labs) (Some tmm) None None), w'.
  split; [exact P1|]. split; auto. unfold processed. simpl.
  repeat (split; [reflexivity|]). exists b, labs, tmm.
  destruct P3 as (T & -> & P6). rewrite map_length, zrange_length.
  split; auto. split; auto. split; auto. split; auto. split; auto. split; auto. split; auto.
  intros k Hk. rewrite (map_nth_in _ _ _ (NInf, 0) 0) by (rewrite zrange_length; auto).
  rewrite nth_zrange by auto.
  assert (Hin : In (Z.of_nat k) labs) by (apply P6; lia).
  exists (hd 0%nat (thread_inds labs (Z.of_nat k))), (last (thread_inds labs (Z.of_nat k)) 0%nat).
  split; [apply hd_first; auto|]. split; [apply last_last; auto|]. reflexivity.
Qed.

Lemma processed_consistent : forall E init s r, well_formed init (points s) ->
    processed (sort_samps E s) r ->
    exists labs tmm, consistent r labs tmm /\ settings r = None.
Proof.
  intros E init s r Hwf (P1 & P2 & P3 & P4 & b & labs & tmm & B1 & B2 & B3 & B4 & B5 & B6 & B7 & B8 & B9).
  pose proof (well_formed_perm _ _ _ (Permutation_sym (points_sort E s)) Hwf) as Hwf'.
  pose proof (sort_samps_sorted E s) as Hs. set (s' := sort_samps E s) in *.
  exists labs, tmm. split; auto. split; auto. split; auto.
  pose proof B1 as [Hbl _]. rewrite map_length in Hbl.
  pose proof B4 as [Hll _].
  assert (Hlg : length (logl r) = length s') by (rewrite P1, map_length; auto).
  rewrite P1 in *. rewrite P2.
  split; [auto|]. split; [rewrite map_length; congruence|]. split; [rewrite !map_length; auto|].
  split; auto. split; [rewrite !map_length; auto|]. rewrite map_length. split; auto.
  assert (Hpos : (0 < length s')%nat).
  { pose proof (wf_pos init s' Hwf') as H. rewrite map_length in H. auto. }
  split.
  - (* the thread of the first point *)
    assert (Hb0 : nth 0 b 0 = -1) by (specialize (B2 0%nat ltac:(lia)); lia).
    assert (Hl0 : In (nth 0 labs 0) labs) by (apply nth_In; lia).
    apply B6 in Hl0. destruct (B7 (Z.to_nat (nth 0 labs 0)) ltac:(lia)) as (f & l & F1 & F2 & F3).
    assert (f = 0%nat).
    { apply (first_unique labs (nth 0 labs 0)); [rewrite Z2Nat.id in F1 by lia; auto|].
      split; [lia|]. split; auto. intros; lia. }
    subst f. rewrite Hb0 in F3. simpl in F3.
    apply in_map_iff. exists (nth (Z.to_nat (nth 0 labs 0)) tmm (NInf, 0)). rewrite F3. split; auto.
    rewrite <- F3. apply nth_In. lia.
  - intros k Hk. destruct (B7 k Hk) as (f & l & F1 & F2 & F3). split.
    + intros f' m Hf' Hm. rewrite (first_unique _ _ _ _ Hf' F1).
      rewrite (map_nth_in _ _ _ None (NInf, 0)) in Hm by auto. rewrite F3 in Hm. simpl in Hm.
      destruct (nth f b 0 =? -1) eqn:He; [discriminate|]. inversion Hm; subst m.
      apply Z.eqb_neq in He. destruct F1 as [F1 _].
      pose proof (B2 f ltac:(lia)). apply ssorted_le_nth_le; auto. rewrite map_length. lia.
    + intros l' Hl'. rewrite (last_unique _ _ _ _ Hl' F2).
      rewrite (map_nth_in _ _ _ 0 (NInf, 0)) by auto. rewrite F3. auto.
Qed.
