(** C94: check_ns_run on arrays holding nan and infinities. *)
From Verif Require Import Base ModelRun ModelNan Envs ProofBase ProofMonad Spec SpecRun ProofRun.

(** ** What is claimed: the order of the extended reals; nan is not in it. *)
Inductive ext_le : num -> num -> Prop :=
| le_neginf : forall b, b <> Nan -> ext_le NegInf b
| le_posinf : forall a, a <> Nan -> ext_le a PosInf
| le_finite : forall x y, x <= y -> ext_le (Num x) (Num y).

(** The documented format, for a run whose numbers may be infinite. *)
Definition valid_nrun (r : nrun) : Prop :=
  length (n_nlive r) = length (n_logl r) /\ length (n_theta r) = length (n_logl r) /\
  ~ In Nan (n_logl r) /\ StronglySorted ext_le (n_logl r) /\
  exists labs, n_labels r = LInt labs /\ length labs = length (n_logl r) /\
    (forall x, In x labs <-> 0 <= x < Z.of_nat (length (n_tmm r))) /\
    (exists mx, In (NegInf, mx) (n_tmm r)) /\
    forall k mn mx, nth_error (n_tmm r) k = Some (mn, mx) -> mx <> Nan /\
      (forall f x, first_of labs (Z.of_nat k) f -> nth_error (n_logl r) f = Some x -> ext_le mn x) /\
      (forall l x, last_of labs (Z.of_nat k) l -> nth_error (n_logl r) l = Some x -> mx = x).

(** ** Proofs *)
Lemma num_leb_spec : forall a b, num_leb a b = true <-> ext_le a b.
Proof.
  intros a b. split.
  - destruct a, b; simpl; intros H; try discriminate; try (constructor; discriminate).
    constructor. apply Z.leb_le; auto.
  - intros H. destruct H as [b H|a H|x y H].
    + destruct b; auto; congruence.
    + destruct a; auto; congruence.
    + simpl. apply Z.leb_le; auto.
Qed.
Lemma num_eqb_spec : forall a b, num_eqb a b = true <-> a = b /\ a <> Nan.
Proof.
  intros a b. destruct a, b; simpl; try (split; [discriminate|intros [H1 H2]; congruence]).
  - split; auto. intros _. split; [auto|discriminate].
  - rewrite Z.eqb_eq. split; [intros ->; split; [auto|discriminate]|intros [H _]; congruence].
  - split; auto. intros _. split; [auto|discriminate].
Qed.
Lemma nums_eqb_spec : forall l m, nums_eqb l m = true <-> l = m /\ ~ In Nan l.
Proof.
  induction l as [|x l IH]; destruct m as [|y m]; simpl.
  - split; auto.
  - split; [discriminate|intros [H _]; discriminate].
  - split; [discriminate|intros [H _]; discriminate].
  - rewrite andb_true_iff, num_eqb_spec, IH. split.
    + intros [[-> H1] [-> H2]]. split; auto. intros [H|H]; auto.
    + intros [H1 H2]. injection H1 as -> ->. split; split; auto.
Qed.
Lemma sort_leb_fin : forall a b, a <> Nan -> b <> Nan -> sort_leb a b = num_leb a b.
Proof. intros [] []; intros; auto; congruence. Qed.
Lemma ext_le_antisym : forall a b, ext_le a b -> ext_le b a -> a = b.
Proof.
  intros a b H1 H2. apply num_leb_spec in H1, H2. destruct a, b; simpl in *; try discriminate; auto.
  apply Z.leb_le in H1, H2. f_equal. lia.
Qed.
Lemma sort_leb_antisym : forall a b, sort_leb a b = true -> sort_leb b a = true -> a = b.
Proof.
  intros a b H1 H2. destruct a, b; simpl in *; try discriminate; auto.
  apply Z.leb_le in H1, H2. f_equal. lia.
Qed.

Lemma sorted_perm_eq : forall A (R : A -> A -> Prop),
    (forall a b, R a b -> R b a -> a = b) ->
    forall l m, Permutation l m -> StronglySorted R l -> StronglySorted R m -> l = m.
Proof.
  intros A R HR. induction l as [|x l IH]; intros m HP Hl Hm.
  - apply Permutation_nil in HP. auto.
  - destruct m as [|y m]; [apply Permutation_sym, Permutation_nil in HP; discriminate|].
    inversion Hl as [|? ? L1 L2]; subst. inversion Hm as [|? ? M1 M2]; subst.
    rewrite Forall_forall in L2, M2.
    assert (Hxy : x = y).
    { assert (Hx : In x (y :: m)) by (eapply Permutation_in; [exact HP|left; auto]).
      assert (Hy : In y (x :: l)) by (eapply Permutation_in; [apply Permutation_sym; exact HP|left; auto]).
      destruct Hx as [Hx|Hx]; [auto|]. destruct Hy as [Hy|Hy]; [auto|]. apply HR; auto. }
    subst y. apply Permutation_cons_inv in HP. f_equal. auto.
Qed.

Lemma take_perm : forall (S : sorter) l, Permutation (take Nan l (nsort S l)) l.
Proof.
  intros S l. unfold take. transitivity (map (fun i => nth i l Nan) (seq 0 (length l))).
  - apply Permutation_map, nsort_perm.
  - apply Permutation_refl'. clear S.
    assert (H : forall k, map (fun i => nth (i - k) l Nan) (seq k (length l)) = l).
    { induction l as [|x l IH]; intros k; simpl; auto. rewrite Nat.sub_diag. f_equal.
      rewrite <- (IH (S k)) at 2. apply map_ext_in. intros i Hi. apply in_seq in Hi.
      replace (i - k)%nat with (S (i - S k)) by lia. reflexivity. }
    rewrite <- (H 0%nat) at 2. apply map_ext. intros. rewrite Nat.sub_0_r. auto.
Qed.

Lemma SS_impl_in : forall A (R Q : A -> A -> Prop) l,
    (forall a b, In a l -> In b l -> R a b -> Q a b) -> StronglySorted R l -> StronglySorted Q l.
Proof.
  induction l as [|x l IH]; intros H HS; constructor; inversion HS; subst.
  - apply IH; auto. intros. apply H; simpl; auto.
  - rewrite Forall_forall in *. intros y Hy. apply H; simpl; auto.
Qed.

Lemma sorted_test : forall (S : sorter) l,
    nums_eqb l (take Nan l (nsort S l)) = true <-> ~ In Nan l /\ StronglySorted ext_le l.
Proof.
  intros S l. rewrite nums_eqb_spec. split.
  - intros [H1 H2]. split; auto. rewrite H1.
    pose proof (nsort_sorted S l) as HS. fold (take Nan l (nsort S l)) in HS.
    eapply SS_impl_in; [|exact HS]. rewrite <- H1. intros a b Ha Hb Hab.
    rewrite sort_leb_fin in Hab by (intros ->; auto). apply num_leb_spec; auto.
  - intros [H1 H2]. split; auto.
    apply (sorted_perm_eq _ (fun a b => sort_leb a b = true)).
    + apply sort_leb_antisym.
    + apply Permutation_sym, take_perm.
    + eapply SS_impl_in; [|exact H2]. intros a b Ha Hb Hab.
      rewrite sort_leb_fin by (intros ->; auto). apply num_leb_spec; auto.
    + apply (nsort_sorted S).
Qed.

Lemma nodup_len : forall l : list num,
    (length l - length (nodup num_eq_dec l) =? 0)%nat = true <-> NoDup l.
Proof.
  intros l. assert (Hle : (length (nodup num_eq_dec l) <= length l)%nat).
  { apply NoDup_incl_length; [apply NoDup_nodup|]. intros x. rewrite nodup_In. auto. }
  rewrite Nat.eqb_eq. split.
  - intros H. apply (@NoDup_incl_NoDup _ (nodup num_eq_dec l)).
    + apply NoDup_nodup.
    + lia.
    + intros x. rewrite nodup_In. auto.
  - intros H. rewrite nodup_fixed_point by auto. lia.
Qed.

Lemma nmembers : forall r, ncheck_members r = Ok tt <->
    length (n_nlive r) = length (n_logl r) /\ labels_len (n_labels r) = length (n_logl r) /\
    length (n_theta r) = length (n_logl r).
Proof.
  intros r. unfold ncheck_members.
  destruct (length (n_logl r) =? length (n_nlive r))%nat eqn:H1; simpl.
  2: { apply Nat.eqb_neq in H1. split; [discriminate|]. intros (A & _). congruence. }
  destruct (length (n_logl r) =? labels_len (n_labels r))%nat eqn:H2; simpl.
  2: { apply Nat.eqb_neq in H2. split; [discriminate|]. intros (_ & A & _). congruence. }
  apply Nat.eqb_eq in H1, H2. rewrite assertb_Ok, Nat.eqb_eq. intuition congruence.
Qed.
Lemma nmembers_AE : forall r e, ncheck_members r = Raise e -> e = AssertionError.
Proof.
  intros r e. unfold ncheck_members, rbind, assertb.
  repeat match goal with |- context [if ?b then _ else _] => destruct b end; congruence.
Qed.
Lemma nthreads_AE : forall r e, ncheck_threads r = Raise e -> e = AssertionError.
Proof.
  intros r e. unfold ncheck_threads. destruct (n_labels r) as [labs|]; [|congruence].
  destruct (list_eqb _ _); simpl; [|congruence].
  destruct (existsb _ _); simpl; [|congruence].
  generalize (unique labs). intros l. induction l as [|x t IH]; simpl; [discriminate|].
  unfold assertb at 1. destruct (num_leb _ _); simpl; [|congruence].
  unfold assertb at 1. destruct (num_eqb _ _); simpl; [auto|congruence].
Qed.

Lemma nthreads_ok : forall r labs, n_labels r = LInt labs -> length labs = length (n_logl r) ->
    (ncheck_threads r = Ok tt <->
     (forall x, In x labs <-> 0 <= x < Z.of_nat (length (n_tmm r))) /\
     (exists mx, In (NegInf, mx) (n_tmm r)) /\
     forall k mn mx, nth_error (n_tmm r) k = Some (mn, mx) -> mx <> Nan /\
      (forall f x, first_of labs (Z.of_nat k) f -> nth_error (n_logl r) f = Some x -> ext_le mn x) /\
      (forall l x, last_of labs (Z.of_nat k) l -> nth_error (n_logl r) l = Some x -> mx = x)).
Proof.
  intros r labs Hl Hlen. unfold ncheck_threads. rewrite Hl.
  set (tmm := n_tmm r). set (lg := n_logl r) in *.
  assert (Hu : list_eqb (zrange (length tmm)) (unique labs) = true <->
               forall x, In x labs <-> 0 <= x < Z.of_nat (length tmm)).
  { rewrite list_eqb_eq. split.
    - intros H x. rewrite <- in_unique, <- H, in_zrange. tauto.
    - intros H. symmetry. apply unique_zrange; auto. }
  assert (Hn : existsb (fun mm => num_eqb (fst mm) NegInf) tmm = true <->
               exists mx, In (NegInf, mx) tmm).
  { rewrite existsb_exists. split.
    - intros [[a b] [H1 H2]]. apply num_eqb_spec in H2 as [H2 _]. simpl in H2. subst a. eauto.
    - intros [mx H]. exists (NegInf, mx). auto. }
  destruct (list_eqb (zrange (length tmm)) (unique labs)); simpl.
  2: { split; [discriminate|]. intros (H & _). apply Hu in H. discriminate. }
  destruct (existsb (fun mm => num_eqb (fst mm) NegInf) tmm); simpl.
  2: { split; [discriminate|]. intros (_ & H & _). apply Hn in H. discriminate. }
  assert (Hu' := proj1 Hu eq_refl). assert (Hn' := proj1 Hn eq_refl).
  rewrite foldM_unit.
  assert (Hk : forall k mn mx, nth_error tmm k = Some (mn, mx) ->
     (rbind (assertb (num_leb (fst (nth k tmm (Nan, Nan)))
                             (nth (hd 0%nat (where_ (Z.eqb (Z.of_nat k)) labs)) lg Nan)))
           (fun _ => assertb (num_eqb (snd (nth k tmm (Nan, Nan)))
                        (nth (last (where_ (Z.eqb (Z.of_nat k)) labs) 0%nat) lg Nan))) = Ok tt
      <-> mx <> Nan /\
        (forall f x, first_of labs (Z.of_nat k) f -> nth_error lg f = Some x -> ext_le mn x) /\
        (forall l x, last_of labs (Z.of_nat k) l -> nth_error lg l = Some x -> mx = x))).
  { intros k mn mx Hk. rewrite (nth_error_nth _ _ _ Hk). cbn [fst snd].
    assert (Hkl : (k < length tmm)%nat) by (apply nth_error_Some; congruence).
    assert (Hin : In (Z.of_nat k) labs) by (apply Hu'; lia).
    pose proof (hd_first _ _ Hin) as Hf. pose proof (last_last _ _ Hin) as Hla.
    set (f0 := hd 0%nat (where_ (Z.eqb (Z.of_nat k)) labs)) in *.
    set (l0 := last (where_ (Z.eqb (Z.of_nat k)) labs) 0%nat) in *.
    assert (Ff : nth_error lg f0 = Some (nth f0 lg Nan))
      by (apply nth_error_nth'; rewrite <- Hlen; apply Hf).
    assert (Fl : nth_error lg l0 = Some (nth l0 lg Nan))
      by (apply nth_error_nth'; rewrite <- Hlen; apply Hla).
    destruct (num_leb mn (nth f0 lg Nan)) eqn:H1; simpl.
    - rewrite assertb_Ok, num_eqb_spec. apply num_leb_spec in H1. split.
      + intros [H2 H3]. split; [auto|]. split.
        * intros f x Hf' Hx. rewrite (first_unique _ _ _ _ Hf' Hf) in Hx. congruence.
        * intros l x Hl' Hx. rewrite (last_unique _ _ _ _ Hl' Hla) in Hx. congruence.
      + intros (H2 & _ & H3). split; [|auto]. eapply H3; eauto.
    - split; [discriminate|]. intros (_ & H2 & _).
      specialize (H2 _ _ Hf Ff). apply num_leb_spec in H2. congruence. }
  split.
  - intros H. split; [exact Hu'|]. split; [exact Hn'|]. intros k mn mx Hkm.
    apply (Hk k mn mx Hkm). specialize (H (Z.of_nat k)). rewrite Nat2Z.id in H. apply H.
    apply in_unique, Hu'. assert (k < length tmm)%nat by (apply nth_error_Some; congruence). lia.
  - intros (_ & _ & H) x Hx. apply in_unique, Hu' in Hx.
    destruct (nth_error tmm (Z.to_nat x)) as [[mn mx]|] eqn:He.
    2: { apply nth_error_None in He. lia. }
    specialize (Hk _ _ _ He). rewrite Z2Nat.id in Hk by lia. apply Hk.
    specialize (H _ _ _ He). rewrite Z2Nat.id in H by lia. auto.
Qed.

Lemma nlogls : forall E S lg da dw (w : world E),
    match ncheck_logls S lg da dw w with
    | (Ok _, w') => (~ In Nan lg /\ StronglySorted ext_le lg) /\ (da = true -> NoDup lg) /\
                    (NoDup lg \/ dw = false -> w' = w) /\
                    (~ NoDup lg -> dw = true -> w' = mkW (w_rng w) (WDupLogl :: w_warn w))
    | (Raise e, w') => e = AssertionError /\ w' = w /\
                       ~ ((~ In Nan lg /\ StronglySorted ext_le lg) /\ (da = true -> NoDup lg))
    end.
Proof.
  intros E S lg da dw [rg wn]. unfold ncheck_logls, wbind, wassert, wlift, assertb, warn, wret.
  pose proof (sorted_test S lg) as Hs. pose proof (nodup_len lg) as Hn.
  destruct (nums_eqb lg (take Nan lg (nsort S lg))).
  2: { split; [auto|]. split; [auto|]. intros [H _]. apply Hs in H. discriminate. }
  destruct ((length lg - length (nodup num_eq_dec lg) =? 0)%nat).
  - assert (NoDup lg) by (apply Hn; auto). destruct da, dw; simpl; (split; [tauto|split; [auto|split; [auto|tauto]]]).
  - assert (~ NoDup lg) by (intros H; apply Hn in H; discriminate).
    destruct da; [|destruct dw]; simpl.
    + split; auto. split; auto. intros [_ H1]. auto.
    + split; [tauto|]. split; [discriminate|]. split; [|auto]. intros [?|?]; [tauto|discriminate].
    + split; [tauto|]. split; [discriminate|]. split; [auto|]. intros _ ?. discriminate.
Qed.

(** ** C94 *)
(** check_ns_run accepts exactly the documented runs; it raises nothing but
    AssertionError, and its warning is the one about repeated logls. *)
Theorem C94_check : forall E S r da dw (w : world E),
    match ncheck S r da dw w with
    | (Ok _, w') => valid_nrun r /\ (da = true -> NoDup (n_logl r)) /\
                    (NoDup (n_logl r) \/ dw = false -> w' = w) /\
                    (~ NoDup (n_logl r) -> dw = true -> w' = mkW (w_rng w) (WDupLogl :: w_warn w))
    | (Raise e, w') => e = AssertionError /\ w_rng w' = w_rng w /\
                       ~ (valid_nrun r /\ (da = true -> NoDup (n_logl r)))
    end.
Proof.
  intros E S r da dw w. unfold ncheck. unfold wlift at 1. unfold wbind at 1.
  destruct (ncheck_members r) as [[]|e] eqn:Hm.
  2: { split; [eapply nmembers_AE; eauto|]. split; auto.
       intros [(A & B & _ & _ & labs & C & D & _) _].
       assert (ncheck_members r = Ok tt); [|congruence]. apply nmembers. rewrite C. auto. }
  apply nmembers in Hm as (M1 & M2 & M3).
  pose proof (nlogls E S (n_logl r) da dw w) as Hc.
  destruct (ncheck_logls S (n_logl r) da dw w) as [[u|e] w1] eqn:Hl.
  - rewrite (wbind_run _ _ _ _ _ _ _ _ Hl). destruct Hc as (C1 & C2 & C3 & C4). unfold wlift.
    assert (Hw : w_rng w1 = w_rng w).
    { destruct (nodup_len (n_logl r)) as [N1 N2]. destruct dw.
      - destruct ((length (n_logl r) - length (nodup num_eq_dec (n_logl r)) =? 0)%nat) eqn:Hd.
        + rewrite C3; auto.
        + rewrite C4; auto. intros H. apply N2 in H. discriminate.
      - rewrite C3; auto. }
    destruct (ncheck_threads r) as [[]|e] eqn:He.
    + destruct (n_labels r) as [labs|fl] eqn:HL; [|unfold ncheck_threads in He; rewrite HL in He; discriminate].
      apply (nthreads_ok r labs HL M2) in He.
      split; [|auto]. split; [auto|]. split; [auto|]. split; [tauto|]. split; [tauto|].
      exists labs. auto.
    + split; [eapply nthreads_AE; eauto|]. split; [auto|].
      intros [(_ & _ & _ & _ & labs & L1 & L2 & L3) _].
      apply (nthreads_ok r labs L1 L2) in L3. congruence.
  - rewrite (wbind_raise _ _ _ _ _ _ _ _ Hl). destruct Hc as (-> & -> & H).
    split; [auto|]. split; [auto|]. intros [(_ & _ & V1 & V2 & _) Hd]. apply H. auto.
Qed.
Print Assumptions C94_check.

(** An accepted run has no nan among its log-likelihoods and contours ... *)
Theorem C94_no_nan : forall E S r da dw (w w' : world E) u,
    ncheck S r da dw w = (Ok u, w') ->
    ~ In Nan (n_logl r) /\ forall mn mx, In (mn, mx) (n_tmm r) -> mn <> Nan /\ mx <> Nan.
Proof.
  intros E S r da dw w w' u H. pose proof (C94_check E S r da dw w) as HC. rewrite H in HC.
  destruct HC as ((_ & _ & V1 & V2 & labs & L1 & L2 & L3 & _ & L4) & _).
  split; auto. intros mn mx Hin. destruct (In_nth_error _ _ Hin) as [k Hk].
  destruct (L4 _ _ _ Hk) as (A & B & _). split; [|auto].
  assert (Hkl : (k < length (n_tmm r))%nat) by (apply nth_error_Some; congruence).
  assert (Hi : In (Z.of_nat k) labs) by (apply L3; lia).
  pose proof (hd_first _ _ Hi) as Hf.
  destruct (nth_error (n_logl r) (hd 0%nat (where_ (Z.eqb (Z.of_nat k)) labs))) as [x|] eqn:Hx.
  - specialize (B _ _ Hf Hx). intros ->. apply num_leb_spec in B. discriminate.
  - apply nth_error_None in Hx. destruct Hf as (Hf & _). lia.
Qed.
Print Assumptions C94_no_nan.

(** ... but theta and nlive_array are not looked at: whatever their values, only
    their lengths matter. *)
Theorem C94_unchecked : forall E S lg th th' nl nl' labs tmm da dw (w : world E),
    length th = length th' -> length nl = length nl' ->
    ncheck S (mkNRun lg th nl labs tmm) da dw w = ncheck S (mkNRun lg th' nl' labs tmm) da dw w.
Proof.
  intros. unfold ncheck, ncheck_members, ncheck_threads. cbn [n_logl n_theta n_nlive n_labels n_tmm].
  rewrite H, H0. reflexivity.
Qed.
Print Assumptions C94_unchecked.

(** On finite numbers this is the function of [ModelRun] (C60). *)
Definition num_of_ext (e : ext) : num := match e with NInf => NegInf | Fin z => Num z end.
Definition nrun_of (r : run) (labs : list Z) (tmm : list (ext * Z)) : nrun :=
  mkNRun (map Num (logl r)) (map (map Num) (theta r)) (map Num (nlive_array r)) (LInt labs)
         (map (fun mm => (num_of_ext (fst mm), Num (snd mm))) tmm).

Lemma nth_Num : forall i l, (i < length l)%nat -> nth i (map Num l) Nan = Num (nth i l 0).
Proof. intros. rewrite (map_nth_in _ _ Num Nan 0) by auto. auto. Qed.

Lemma valid_finite : forall r labs tmm, settings r = None -> thread_labels r = Some labs ->
    thread_min_max r = Some tmm -> (valid_nrun (nrun_of r labs tmm) <-> valid_run r).
Proof.
  intros r labs tmm Hs Hl Ht. unfold valid_nrun, valid_run, nrun_of.
  cbn [n_logl n_theta n_nlive n_labels n_tmm]. rewrite !map_length.
  assert (HS : StronglySorted ext_le (map Num (logl r)) <-> StronglySorted Z.le (logl r)).
  { induction (logl r) as [|x l IH]; simpl; [split; constructor|].
    split; intros H; inversion H as [|? ? A B]; subst; constructor; try (apply IH; auto);
      rewrite Forall_forall in *; intros y Hy.
    - specialize (B (Num y) (in_map Num _ _ Hy)). inversion B; auto.
    - apply in_map_iff in Hy as [z [<- Hz]]. constructor. auto. }
  assert (HN : ~ In Nan (map Num (logl r))).
  { rewrite in_map_iff. intros [x [H _]]. discriminate. }
  split.
  - intros (A & B & _ & C & labs' & D & F & G & H & I). injection D as <-. split; auto.
    exists labs, tmm. split; [auto|]. split; [auto|]. unfold valid_columns. rewrite !map_length.
    split; [auto|]. split; [auto|]. split; [auto|]. split; [tauto|]. split; [auto|].
    split; [auto|]. split.
    + destruct H as [mx H]. apply in_map_iff in H as [[e z] [H1 H2]]. injection H1 as H1 <-.
      apply in_map_iff. exists (e, z). destruct e; [auto|discriminate].
    + intros k Hk. destruct (nth_error tmm k) as [[e z]|] eqn:Hkt.
      2: { apply nth_error_None in Hkt. lia. }
      specialize (I k (num_of_ext e) (Num z)). rewrite nth_error_map, Hkt in I.
      specialize (I eq_refl). destruct I as (_ & I1 & I2).
      rewrite (map_nth_in _ _ _ None (NInf, 0)) by auto.
      rewrite (map_nth_in _ _ snd 0 (NInf, 0)) by auto.
      rewrite (nth_error_nth _ _ _ Hkt). cbn [fst snd]. split.
      * intros f m Hf Hm. specialize (I1 f (Num (nth f (logl r) 0)) Hf).
        destruct e; [discriminate|]. simpl in Hm. injection Hm as ->.
        assert (Hfl : (f < length (logl r))%nat) by (rewrite <- F; apply Hf).
        assert (HH : ext_le (num_of_ext (Fin m)) (Num (nth f (logl r) 0))).
        { apply I1. rewrite nth_error_map, (nth_error_nth' _ 0) by auto. auto. }
        inversion HH; auto.
      * intros l Hla. specialize (I2 l (Num (nth l (logl r) 0)) Hla).
        assert (Hll : (l < length (logl r))%nat) by (rewrite <- F; apply Hla).
        rewrite nth_error_map, (nth_error_nth' _ 0) in I2 by auto.
        specialize (I2 eq_refl). congruence.
  - intros (_ & labs' & tmm' & A & B & C). replace labs' with labs in * by congruence.
    replace tmm' with tmm in * by congruence. clear labs' tmm' A B.
    destruct C as (C1 & C2 & C3 & C4 & C5 & C6 & C7 & C8). rewrite !map_length in *.
    split; [auto|]. split; [auto|]. split; [auto|]. split; [tauto|]. exists labs.
    split; [auto|]. split; [auto|]. split; [auto|]. split.
    + apply in_map_iff in C7 as [[e z] [H1 H2]]. exists (Num z). apply in_map_iff.
      exists (e, z). destruct e; [auto|discriminate].
    + intros k mn mx Hk. rewrite nth_error_map in Hk.
      destruct (nth_error tmm k) as [[e z]|] eqn:Hkt; [|discriminate].
      simpl in Hk. injection Hk as <- <-.
      assert (Hkl : (k < length tmm)%nat) by (apply nth_error_Some; congruence).
      destruct (C8 k Hkl) as [D1 D2].
      rewrite (map_nth_in _ _ _ None (NInf, 0)) in D1 by auto.
      rewrite (map_nth_in _ _ snd 0 (NInf, 0)) in D2 by auto.
      rewrite (nth_error_nth _ _ _ Hkt) in D1, D2. cbn [fst snd] in D1, D2.
      split; [discriminate|]. split.
      * intros f x Hf Hx. rewrite nth_error_map in Hx.
        destruct (nth_error (logl r) f) as [y|] eqn:Hy; [|discriminate].
        simpl in Hx. injection Hx as <-. destruct e; simpl; [constructor; discriminate|].
        constructor. rewrite <- (nth_error_nth _ _ 0 Hy). eapply D1; eauto.
      * intros l x Hla Hx. rewrite nth_error_map in Hx.
        destruct (nth_error (logl r) l) as [y|] eqn:Hy; [|discriminate].
        simpl in Hx. injection Hx as <-. rewrite <- (nth_error_nth _ _ 0 Hy). rewrite (D2 l); auto.
Qed.

Lemma NoDup_Num : forall l, NoDup (map Num l) <-> NoDup l.
Proof.
  induction l as [|x l IH]; simpl; [split; constructor|].
  split; intros H; inversion H as [|? ? A B]; subst; constructor; try (apply IH; auto).
  - intros Hx. apply A, in_map. auto.
  - rewrite in_map_iff. intros [y [Hy Hy']]. injection Hy as ->. auto.
Qed.

Theorem C94_finite : forall E S r labs tmm da dw (w : world E), settings r = None ->
    thread_labels r = Some labs -> thread_min_max r = Some tmm ->
    fst (ncheck S (nrun_of r labs tmm) da dw w) = fst (check_ns_run r da dw w).
Proof.
  intros E S r labs tmm da dw w Hs Hl Ht.
  pose proof (C94_check E S (nrun_of r labs tmm) da dw w) as HC.
  pose proof (check_ns_run_spec E r da dw w) as HR.
  pose proof (valid_finite r labs tmm Hs Hl Ht) as HV.
  assert (HN : NoDup (n_logl (nrun_of r labs tmm)) <-> NoDup (logl r)) by apply NoDup_Num.
  destruct (ncheck S (nrun_of r labs tmm) da dw w) as [[[]|e1] w1];
    destruct (check_ns_run r da dw w) as [[[]|e2] w2]; simpl; auto.
  - exfalso. destruct HR as (_ & _ & HR). apply HR. split; [tauto|]. intros; apply HN; tauto.
  - exfalso. destruct HC as (_ & _ & HC). apply HC. split; [tauto|]. intros; apply HN; tauto.
  - destruct HC as (-> & _), HR as (-> & _). auto.
Qed.
Print Assumptions C94_finite.

(** ** Examples *)
Fixpoint nins (l : list num) (i : nat) (js : list nat) : list nat :=
  match js with
  | [] => [i]
  | j :: t => if sort_leb (nth i l Nan) (nth j l Nan) then i :: js else j :: nins l i t
  end.
Definition nisort (l : list num) : list nat := fold_right (nins l) [] (seq 0 (length l)).
Lemma sort_leb_trans : forall a b c, sort_leb a b = true -> sort_leb b c = true -> sort_leb a c = true.
Proof.
  intros [] [] []; simpl; intros H1 H2; auto; try discriminate.
  apply Z.leb_le in H1, H2. apply Z.leb_le. lia.
Qed.
Lemma sort_leb_total : forall a b, sort_leb a b = false -> sort_leb b a = true.
Proof. intros [] []; simpl; intros H; auto. apply Z.leb_gt in H. apply Z.leb_le. lia. Qed.
Lemma nins_perm : forall l i js, Permutation (nins l i js) (i :: js).
Proof.
  induction js as [|j t IH]; simpl; auto. destruct (sort_leb _ _); auto. rewrite IH. apply perm_swap.
Qed.
Lemma nins_sorted : forall l i js,
    StronglySorted (fun a b => sort_leb a b = true) (map (fun k => nth k l Nan) js) ->
    StronglySorted (fun a b => sort_leb a b = true) (map (fun k => nth k l Nan) (nins l i js)).
Proof.
  induction js as [|j t IH]; simpl; intros H; [repeat constructor|].
  inversion H as [|? ? A B]; subst. destruct (sort_leb (nth i l Nan) (nth j l Nan)) eqn:He; simpl.
  - constructor; auto. constructor; auto. eapply Forall_impl; [|exact B].
    simpl. intros a Ha. eapply sort_leb_trans; eauto.
  - constructor; auto. rewrite Forall_forall in *. intros x Hx. apply in_map_iff in Hx as [k [<- Hk]].
    apply (Permutation_in _ (nins_perm l i t)) in Hk as [<-|Hk]; [apply sort_leb_total; auto|].
    apply B, in_map_iff. eauto.
Qed.
Lemma nisort_perm : forall l, Permutation (nisort l) (seq 0 (length l)).
Proof. intros. unfold nisort. induction (seq 0 (length l)); simpl; auto. rewrite nins_perm. auto. Qed.
Lemma nisort_sorted : forall l,
    StronglySorted (fun a b => sort_leb a b = true) (map (fun i => nth i l Nan) (nisort l)).
Proof. intros. unfold nisort. induction (seq 0 (length l)); simpl; [constructor|]. apply nins_sorted; auto. Qed.
Definition np_sort : sorter := mkSorter nisort nisort_perm nisort_sorted.

Definition w0 : world (script_env []) := @mkW (script_env []) [] [].
(** Points of zero likelihood, and even one of infinite likelihood, are
    accepted; so is a nan among the parameters or live points. *)
Example C94_infinite :
  ncheck np_sort (mkNRun [NegInf; NegInf; Num 3; PosInf] [[Nan]; [Num 1]; [Num 2]; [Num 2]]
                         [Num 2; Nan; Num 1; Num 1] (LInt [0; 1; 1; 0])
                         [(NegInf, PosInf); (NegInf, Num 3)]) false true w0
  = (Ok tt, @mkW (script_env []) [] [WDupLogl]).
Proof. vm_compute. reflexivity. Qed.
(** A single nan is rejected although the array [nan] is sorted. *)
Example C94_single_nan :
  ncheck np_sort (mkNRun [Nan] [[Num 1]] [Num 1] (LInt [0]) [(NegInf, Nan)]) false false w0
  = (Raise AssertionError, w0).
Proof. vm_compute. reflexivity. Qed.
(** A thread which starts at nan, or whose end is nan, is rejected. *)
Example C94_nan_contour :
  ncheck np_sort (mkNRun [Num 1; Num 2] [[Num 1]; [Num 1]] [Num 1; Num 1] (LInt [0; 1])
                         [(NegInf, Num 1); (Nan, Num 2)]) false false w0
  = (Raise AssertionError, w0) /\
  ncheck np_sort (mkNRun [Num 1; Num 2] [[Num 1]; [Num 1]] [Num 1; Num 1] (LInt [0; 1])
                         [(NegInf, Num 1); (Num 1, Nan)]) false false w0
  = (Raise AssertionError, w0).
Proof. split; vm_compute; reflexivity. Qed.
(** Labels with a float dtype are rejected even if they are whole numbers. *)
Example C94_float_labels :
  ncheck np_sort (mkNRun [Num 1] [[Num 1]] [Num 1] (LFloat [Num 0]) [(NegInf, Num 1)]) false false w0
  = (Raise AssertionError, w0).
Proof. vm_compute. reflexivity. Qed.
Example C94_finite_example :
  fst (ncheck np_sort (nrun_of (mkRun [1; 3] [[10]; [30]] [2; 1] (Some [0; 1])
                                  (Some [(NInf, 1); (NInf, 3)]) None None)
                               [0; 1] [(NInf, 1); (NInf, 3)]) true true w0) = Ok tt.
Proof. vm_compute. reflexivity. Qed.
