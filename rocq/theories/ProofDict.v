(** dict_given_run_array and the counting of live points: C18, C20 - C24. *)
From Verif Require Import Base ModelRun ModelData ProofBase ProofMonad Spec SpecRun
     ProofThreads ProofBirth ProofRun ProofProcess.

(** ** The live point column *)
Definition nl_of (n0 : Z) (dns : list Z) : list Z :=
  map (fun i => n0 + zsum (firstn i dns)) (seq 0 (length dns)).

Lemma nl_form : forall n0 dns, dns <> [] ->
    n0 :: map (Z.add n0) (cumsum (but_last dns)) = nl_of n0 dns.
Proof.
  intros n0 dns H. apply nth_ext' with (d := 0).
  - simpl. unfold nl_of. rewrite !map_length, cumsum_length, but_last_length, seq_length.
    destruct dns; [congruence|auto].
  - intros i Hi. simpl in Hi. rewrite map_length, cumsum_length, but_last_length in Hi.
    unfold nl_of. rewrite nth_map_seq by (destruct dns; [congruence|simpl in *; lia]).
    destruct i as [|i]; simpl nth.
    + simpl. unfold zsum. simpl. lia.
    + rewrite (map_nth_in _ _ _ 0 0) by (rewrite cumsum_length, but_last_length; lia).
      rewrite cumsum_nth by (rewrite but_last_length; lia).
      f_equal. f_equal. rewrite but_last_firstn, firstn_firstn. f_equal. lia.
Qed.

Definition n_start (rows : list row) (tmm : list (ext * Z)) : Z :=
  Z.of_nat (countb (fun mm => ext_leb (fst mm) (min_list (map r_logl rows))) tmm).

Lemma dict_run : forall E rows tmm (w : world E), rows <> [] ->
    (countb (fun mm => ext_eqb (fst mm) (min_list (map r_logl rows))) tmm <= 1)%nat ->
    dict_given_run_array rows tmm w =
    (if (0 <? n_start rows tmm) && (0 <? min_list (nl_of (n_start rows tmm) (map r_dn rows)))
        && (last (nl_of (n_start rows tmm) (map r_dn rows)) 0 =? 1)
     then Ok (mkRun (map r_logl rows) (map r_theta rows) (nl_of (n_start rows tmm) (map r_dn rows))
                    (Some (map r_lab rows)) (Some tmm) None None)
     else Raise AssertionError, w).
Proof.
  intros E rows tmm w Hne Hdup. unfold dict_given_run_array.
  destruct rows as [|x t] eqn:Hr; [congruence|]. rewrite <- Hr in *. clear x t Hr.
  fold (n_start rows tmm).
  rewrite nl_form by (intros H; apply map_eq_nil in H; auto).
  replace (1 <? countb (fun mm => ext_eqb (fst mm) (min_list (map r_logl rows))) tmm)%nat with false
    by (symmetry; apply Nat.ltb_ge; auto).
  unfold wbind, wassert, wlift, assertb, wret.
  destruct (0 <? n_start rows tmm); simpl; auto.
  destruct (0 <? min_list (nl_of (n_start rows tmm) (map r_dn rows))); simpl; auto.
  destruct (last (nl_of (n_start rows tmm) (map r_dn rows)) 0 =? 1); auto.
Qed.

(** C24 *)
Theorem dict_positive : forall E rows tmm (w : world E) r w',
    dict_given_run_array rows tmm w = (Ok r, w') ->
    (forall x, In x (nlive_array r) -> 1 <= x) /\ nlive_array r <> [] /\ last (nlive_array r) 0 = 1.
Proof.
  intros E rows tmm w r w'. unfold dict_given_run_array.
  destruct rows as [|x t] eqn:Hr; [discriminate|]. rewrite <- Hr in *. clear x t Hr.
  cbv zeta.
  set (n0 := Z.of_nat _). set (nl := n0 :: _).
  match goal with |- context [min_list ?y] =>
    match y with (if _ then _ else nl) => set (nl' := y); clearbody nl' end end. intros H.
  apply wbind_Ok in H as (u1 & w1 & A1 & H). apply wbind_Ok in H as (u2 & w2 & A2 & H).
  apply wbind_Ok in H as (u3 & w3 & A3 & H). apply wbind_Ok in H as (u4 & w4 & A4 & H).
  apply wassert_Ok in A3 as [A3 ->]. apply wassert_Ok in A4 as [A4 ->].
  apply Z.ltb_lt in A3. apply Z.eqb_eq in A4. inversion H; subst. simpl.
  assert (Hne : nl' <> []).
  { intros He. subst nl'. simpl in A4. discriminate. }
  split; [|split]; auto. intros x Hx. destruct (min_list_spec nl' Hne) as [_ Hm].
  specialize (Hm x Hx). lia.
Qed.

(** ** Changes in nlive below a contour *)
Definition dsum (x : Z) (rows : list row) : Z :=
  zsum (map r_dn (filter (fun y => r_logl y <? x) rows)).
Definition fin_lt (e : ext) (x : Z) : bool :=
  match e with NInf => false | Fin z => z <? x end.
Definition bal (x : Z) (tmm : list (ext * Z)) : Z :=
  zsum (map (fun mm => Z.b2z (fin_lt (fst mm) x) - Z.b2z (snd mm <? x)) tmm).
Definition balanced (rows : list row) (tmm : list (ext * Z)) : Prop :=
  forall x, dsum x rows = bal x tmm.

Lemma dsum_app : forall x a b, dsum x (a ++ b) = dsum x a + dsum x b.
Proof. intros. unfold dsum. rewrite filter_app, map_app, zsum_app. auto. Qed.
Lemma bal_app : forall x a b, bal x (a ++ b) = bal x a + bal x b.
Proof. intros. unfold bal. rewrite map_app, zsum_app. auto. Qed.
Lemma filter_perm : forall A (p : A -> bool) l m, Permutation l m -> Permutation (filter p l) (filter p m).
Proof.
  intros A p l m H. induction H; simpl; auto.
  - destruct (p x); auto.
  - destruct (p x), (p y); auto. apply perm_swap.
  - etransitivity; eauto.
Qed.
Lemma dsum_perm : forall x a b, Permutation a b -> dsum x a = dsum x b.
Proof.
  intros. unfold dsum. apply zsum_perm, Permutation_map, filter_perm. auto.
Qed.
Lemma balanced_perm : forall a b tmm, Permutation a b -> balanced a tmm -> balanced b tmm.
Proof. intros a b tmm Hp H x. rewrite <- (dsum_perm x a b Hp). apply H. Qed.
Lemma balanced_app : forall a b s t, balanced a s -> balanced b t -> balanced (a ++ b) (s ++ t).
Proof. intros a b s t H1 H2 x. rewrite dsum_app, bal_app, H1, H2. auto. Qed.

(** In sorted rows, the rows below the logl of a row which is the first one
    with its logl are the ones before it. *)
Lemma sorted_prefix : forall rows i, StronglySorted (fun a b => r_logl a <= r_logl b) rows ->
    (i < length rows)%nat ->
    (forall j, (j < i)%nat -> r_logl (nth j rows row0) < r_logl (nth i rows row0)) ->
    filter (fun y => r_logl y <? r_logl (nth i rows row0)) rows = firstn i rows.
Proof.
  induction rows as [|a t IH]; intros i Hs Hi Hf; [simpl in Hi; lia|].
  inversion Hs; subst. rewrite Forall_forall in H2.
  destruct i as [|i].
  - simpl. replace (r_logl a <? r_logl a) with false by (symmetry; apply Z.ltb_ge; lia).
    assert (Hnone : forall y, In y t -> (r_logl y <? r_logl a) = false).
    { intros y Hy. apply Z.ltb_ge. apply H2; auto. }
    clear - Hnone. induction t as [|y t IH]; simpl; auto.
    rewrite (Hnone y) by (left; auto). apply IH. intros. apply Hnone. right; auto.
  - simpl nth. simpl filter. pose proof (Hf 0%nat ltac:(lia)) as H0. simpl in H0.
    replace (r_logl a <? r_logl (nth i t row0)) with true by (symmetry; apply Z.ltb_lt; auto).
    simpl firstn. f_equal. apply IH; auto; [simpl in Hi; lia|].
    intros j Hj. apply (Hf (S j)). lia.
Qed.

Lemma nl_nth : forall n0 rows i, StronglySorted (fun a b => r_logl a <= r_logl b) rows ->
    (i < length rows)%nat ->
    (forall j, (j < i)%nat -> r_logl (nth j rows row0) < r_logl (nth i rows row0)) ->
    nth i (nl_of n0 (map r_dn rows)) 0 = n0 + dsum (r_logl (nth i rows row0)) rows.
Proof.
  intros n0 rows i Hs Hi Hf. unfold nl_of. rewrite map_length. rewrite nth_map_seq by auto.
  unfold dsum. rewrite sorted_prefix by auto. rewrite firstn_map. auto.
Qed.

Lemma bal_live : forall tmm x, (forall mm, In mm tmm -> starts_below (fst mm) (snd mm) = true) ->
    bal x tmm = Z.of_nat (live_at tmm x) - Z.of_nat (countb (fun mm => is_ninf (fst mm)) tmm).
Proof.
  intros tmm x. unfold bal, live_at. induction tmm as [|mm t IH]; intros H; auto.
  cbn [map filter countb]. rewrite zsum_cons, IH by (intros; apply H; right; auto).
  specialize (H mm (or_introl eq_refl)). destruct mm as [[|st] en]; unfold covers;
    cbn [starts_below fin_lt is_ninf fst snd andb] in *.
  - destruct (en <? x) eqn:H1, (x <=? en) eqn:H2; cbn [Z.b2z length];
      rewrite ?Z.ltb_lt, ?Z.ltb_ge, ?Z.leb_le, ?Z.leb_gt in *; lia.
  - destruct (st <? x) eqn:H0, (en <? x) eqn:H1, (x <=? en) eqn:H2; cbn [Z.b2z length andb];
      rewrite ?Z.ltb_lt, ?Z.ltb_ge, ?Z.leb_le, ?Z.leb_gt in *; lia.
Qed.

Lemma n_start_ninf : forall rows tmm,
    starts_above tmm (min_list (map r_logl rows)) ->
    n_start rows tmm = Z.of_nat (countb (fun mm => is_ninf (fst mm)) tmm) /\
    countb (fun mm => ext_eqb (fst mm) (min_list (map r_logl rows))) tmm = 0%nat.
Proof.
  intros rows tmm H. unfold n_start. generalize dependent (min_list (map r_logl rows)). intros m H.
  split.
  - f_equal. apply countb_ext. intros [[|st] en] Hin; simpl; auto.
    specialize (H st en Hin). apply Z.leb_gt. lia.
  - apply countb_zero. intros [[|st] en] Hin; simpl; auto.
    specialize (H st en Hin). apply Z.eqb_neq. lia.
Qed.
