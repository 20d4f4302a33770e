(** Lemmas on rounded arithmetic (ModelRound.v). *)
From Coq Require Import Lra.
From Verif Require Import Base ModelRun ModelReal ModelRound ProofBase SpecReal.
Local Open Scope R_scope.

Lemma combine_nth_min : forall X Y (l : list X) (m : list Y) i d e, (i < length l)%nat -> (i < length m)%nat ->
    nth i (combine l m) (d, e) = (nth i l d, nth i m e).
Proof.
  induction l as [|x l IH]; intros [|y m] i d e H1 H2; cbn in H1, H2; try lia.
  destruct i as [|i]; auto. cbn. apply IH; lia.
Qed.

Section order.
Context (A : arith) (HA : sound A).
Lemma rnd_le0 : forall x, x <= 0 -> rnd A x <= 0.
Proof. intros x H. rewrite <- (s_0 A HA). apply (s_mono A HA). auto. Qed.
Lemma rnd_ge0 : forall x, 0 <= x -> 0 <= rnd A x.
Proof. intros x H. rewrite <- (s_0 A HA) at 1. apply (s_mono A HA). auto. Qed.
Lemma rnd_ge1 : forall x, 1 <= x -> 1 <= rnd A x.
Proof. intros x H. rewrite <- (s_1 A HA) at 1. apply (s_mono A HA). auto. Qed.
Lemma rnd_le1 : forall x, x <= 1 -> rnd A x <= 1.
Proof. intros x H. rewrite <- (s_1 A HA). apply (s_mono A HA). auto. Qed.
Lemma exp_le1 : forall x, x <= 0 -> fexp A x <= 1.
Proof. intros x H. rewrite <- (s_exp_0 A HA). apply (s_exp_mono A HA). auto. Qed.
Lemma log_le0 : forall x, 0 < x -> x <= 1 -> flog A x <= 0.
Proof. intros x H H1. rewrite <- (s_log_1 A HA). apply (s_log_mono A HA); auto. Qed.
Lemma log_ge0 : forall x, 1 <= x -> 0 <= flog A x.
Proof. intros x H. rewrite <- (s_log_1 A HA) at 1. apply (s_log_mono A HA); lra. Qed.

Lemma add_up_nonneg : forall t, (forall x, In x (leaves t) -> 0 <= x) -> 0 <= add_up (rnd A) t.
Proof.
  induction t as [x|a IHa b IHb]; intros H; cbn in *; auto. apply rnd_ge0.
  assert (0 <= add_up (rnd A) a) by (apply IHa; intros; apply H, in_or_app; auto).
  assert (0 <= add_up (rnd A) b) by (apply IHb; intros; apply H, in_or_app; auto). lra.
Qed.
Lemma add_up_ge1 : forall t, (forall x, In x (leaves t) -> 0 <= x) -> In 1 (leaves t) -> 1 <= add_up (rnd A) t.
Proof.
  induction t as [x|a IHa b IHb]; intros H H1; cbn in *.
  - destruct H1 as [->|[]]. lra.
  - apply rnd_ge1. apply in_app_or in H1 as [H1|H1].
    + assert (1 <= add_up (rnd A) a) by (apply IHa; auto; intros; apply H, in_or_app; auto).
      assert (0 <= add_up (rnd A) b) by (apply add_up_nonneg; intros; apply H, in_or_app; auto). lra.
    + assert (1 <= add_up (rnd A) b) by (apply IHb; auto; intros; apply H, in_or_app; auto).
      assert (0 <= add_up (rnd A) a) by (apply add_up_nonneg; intros; apply H, in_or_app; auto). lra.
Qed.
Lemma fsum_nonneg : forall l, (forall x, In x l -> 0 <= x) -> 0 <= fsum A l.
Proof.
  intros [|x0 l0] H; [rewrite (s_sum_nil A HA); lra|]. assert (Hl : x0 :: l0 <> []) by discriminate. revert Hl H. generalize (x0 :: l0). intros l Hl H. destruct (s_sum A HA l Hl) as (t & Hp & ->). apply add_up_nonneg.
  intros x Hx. apply H. eapply Permutation_in; eauto.
Qed.
Lemma fsum_ge1 : forall l, (forall x, In x l -> 0 <= x) -> In 1 l -> 1 <= fsum A l.
Proof.
  intros l H H1. assert (Hl : l <> []) by (intros ->; contradiction).
  destruct (s_sum A HA l Hl) as (t & Hp & ->). apply add_up_ge1.
  - intros x Hx. apply H. eapply Permutation_in; eauto.
  - eapply Permutation_in; [symmetry|]; eauto.
Qed.
(** Two numbers are added with one rounding. *)
Lemma two_leaves : forall t x y, Permutation (leaves t) [x; y] -> add_up (rnd A) t = rnd A (x + y).
Proof.
  assert (Hne : forall t, leaves t <> []).
  { induction t as [x|a IHa b IHb]; cbn; [discriminate|]. intros H. apply app_eq_nil in H as [H _]. auto. }
  intros [z|a b] x y H.
  - apply Permutation_length in H. discriminate.
  - cbn [leaves add_up] in *. pose proof (Permutation_length H) as Hl. rewrite app_length in Hl. cbn in Hl.
    assert (Hs : forall t, length (leaves t) = 1%nat -> exists v, t = Leaf v).
    { intros [v|c d] Hv; eauto. cbn in Hv. rewrite app_length in Hv.
      pose proof (Hne c). pose proof (Hne d). destruct (leaves c), (leaves d); try congruence. cbn in Hv. lia. }
    pose proof (Hne a) as Ha. pose proof (Hne b) as Hb.
    destruct (leaves a) as [|a0 [|a1 la]] eqn:Ea; try congruence; cbn in Hl; try lia.
    2: { destruct (leaves b); [congruence|cbn in Hl; lia]. }
    destruct (Hs a) as [v ->]; [rewrite Ea; auto|]. destruct (Hs b) as [v' ->]; [lia|]. cbn in Ea, H |- *.
    injection Ea as ->. f_equal.
    assert (E : [a0] ++ [v'] = [x; y] \/ [a0] ++ [v'] = [y; x]) by (apply Permutation_length_2_inv; symmetry; auto).
    cbn in E. destruct E as [E|E]; injection E as -> ->; lra.
Qed.
Lemma fsum_two : forall x y, fsum A [x; y] = rnd A (x + y).
Proof.
  intros x y. destruct (s_sum A HA [x; y]) as (t & Hp & ->); [discriminate|]. apply two_leaves. auto.
Qed.

Lemma cumsum_from_sound : forall ss s, rnd A s = s -> s <= 0 -> (forall x, In x ss -> x <= 0) ->
    exists xs, xcumsum_from A (XNum s) (map XNum ss) = map XNum xs /\ length xs = length ss /\
      StronglySorted Rge (s :: xs) /\ (forall x, In x xs -> x <= 0).
Proof.
  induction ss as [|a ss IH]; intros s H1 H2 H3.
  - exists []. split; auto. split; auto. split; [repeat constructor|intros x []].
  - cbn [map xcumsum_from xadd].
    assert (H4 : rnd A (s + a) <= s).
    { rewrite <- H1 at 2. apply (s_mono A HA). specialize (H3 a (or_introl eq_refl)). lra. }
    destruct (IH (rnd A (s + a))) as (xs & E & L & S & N).
    + apply (s_idem A HA).
    + lra.
    + intros; apply H3; right; auto.
    + exists (rnd A (s + a) :: xs). rewrite E. cbn [map length]. split; auto. split; auto. split.
      * constructor; auto. constructor; [lra|]. inversion S as [|? ? _ F]; subst.
        eapply Forall_impl; [|exact F]. cbv beta. intros x Hx. lra.
      * intros x [<-|Hx]; auto. lra.
Qed.
Lemma cumsum_sound : forall ss, (forall x, In x ss -> x <= 0 /\ rnd A x = x) ->
    exists xs, xcumsum A (map XNum ss) = map XNum xs /\ length xs = length ss /\
      StronglySorted Rge xs /\ (forall x, In x xs -> x <= 0).
Proof.
  intros [|s ss] H.
  - exists []. split; auto. split; auto. split; [constructor|intros x []].
  - destruct (H s (or_introl eq_refl)) as [H1 H2].
    destruct (cumsum_from_sound ss s H2 H1) as (xs & E & L & S & N); [intros; apply H; right; auto|].
    exists (s :: xs). cbn [map xcumsum length]. rewrite E. split; auto. split; auto. split; auto.
    intros x [<-|Hx]; auto.
Qed.

(** A log weight: not above [b]. *)
Definition at_most (b : R) (v : xval) : Prop := v = XNeg \/ exists x, v = XNum x /\ x <= b /\ rnd A x = x.
Lemma subtract_sound : forall a b, b <= a -> a <= 0 -> at_most 0 (x_log_subtract A (XNum a) (XNum b)).
Proof.
  intros a b Hb Ha. unfold x_log_subtract, xsub. cbn [xneg xadd xexp].
  assert (Hd : rnd A (b + - a) <= 0) by (apply rnd_le0; auto; lra).
  pose proof (exp_le1 _ Hd) as He. pose proof (s_exp_pos A HA (rnd A (b + - a))) as Hp.
  set (e := fexp A (rnd A (b + - a))) in *.
  assert (Hm : 0 <= rnd A (1 + - e)) by (apply rnd_ge0; auto; lra).
  assert (Hm1 : rnd A (1 + - e) <= 1) by (apply rnd_le1; auto; lra).
  cbn [xlog]. destruct (Rlt_dec 0 (rnd A (1 + - e))) as [Hlt|Hlt].
  - right. exists (rnd A (a + flog A (rnd A (1 + - e)))). split; auto. split; [|apply (s_idem A HA)].
    apply rnd_le0; auto. pose proof (log_le0 _ Hlt Hm1). lra.
  - destruct (Req_EM_T (rnd A (1 + - e)) 0) as [Hz|Hz]; [|lra]. left. reflexivity.
Qed.
Lemma half_sound : forall a b, b <= a -> a <= 0 ->
    exists x, xsub A (xlse A [XNum a; XNum b]) (xlog A (XNum 2)) = XNum x /\ x <= 0 /\ rnd A x = x.
Proof.
  intros a b Hb Ha. unfold xlse. cbn [xmax fold_right xmax2].
  rewrite (Rmax_right b a) by auto. cbn [map xsub xneg xadd xexp].
  replace (a + - a) with 0 by lra. rewrite (s_0 A HA), (s_exp_0 A HA).
  assert (Hd : rnd A (b + - a) <= 0) by (apply rnd_le0; auto; lra).
  pose proof (exp_le1 _ Hd) as He. pose proof (s_exp_pos A HA (rnd A (b + - a))) as Hp.
  unfold xsub. cbn [xneg xadd xexp]. set (e := fexp A (rnd A (b + - a))) in *. unfold xsum. cbn [numbers option_map]. rewrite fsum_two by auto.
  assert (H1 : 1 <= rnd A (1 + e)) by (apply rnd_ge1; auto; lra).
  assert (H2 : rnd A (1 + e) <= 2) by (rewrite <- (s_2 A HA); apply (s_mono A HA); lra).
  cbn [xlog]. destruct (Rlt_dec 0 (rnd A (1 + e))); [|lra]. destruct (Rlt_dec 0 2); [|lra]. cbn [xadd xneg].
  eexists. split; [reflexivity|]. split; [|apply (s_idem A HA)]. apply rnd_le0; auto.
  assert (H3 : flog A (rnd A (1 + e)) <= flog A 2) by (apply (s_log_mono A HA); lra).
  assert (H4 : rnd A (flog A (rnd A (1 + e)) + a) <= flog A 2).
  { rewrite <- (s_log_2 A HA). apply (s_mono A HA). lra. }
  lra.
Qed.
Lemma first_sound : forall a b, b <= a -> a <= 0 ->
    at_most 0 (x_log_subtract A (XNum 0) (xsub A (xlse A [XNum a; XNum b]) (xlog A (XNum 2)))).
Proof.
  intros a b Hb Ha. destruct (half_sound a b Hb Ha) as (x & -> & Hx & _). apply subtract_sound; lra.
Qed.
Lemma minus_log2 : forall v, at_most 0 v -> at_most 0 (xsub A v (xlog A (XNum 2))).
Proof.
  intros v Hv. cbn [xlog]. destruct (Rlt_dec 0 2); [|lra]. destruct Hv as [->|(x & -> & Hx & _)].
  - left. reflexivity.
  - right. unfold xsub. cbn [xneg xadd]. eexists. split; [reflexivity|]. split; [|apply (s_idem A HA)].
    apply rnd_le0; auto. pose proof (log_ge0 2 ltac:(lra)). lra.
Qed.
Lemma plus_logl : forall v l, at_most 0 v -> rnd A l = l -> at_most l (xadd A v (XNum l)).
Proof.
  intros v l Hv Hl. destruct Hv as [->|(x & -> & Hx & _)].
  - left. reflexivity.
  - right. cbn [xadd]. eexists. split; [reflexivity|]. split; [|apply (s_idem A HA)].
    rewrite <- Hl at 2. apply (s_mono A HA). lra.
Qed.
(** The trapezium rule: all at most 0, and the last one a number. *)
Lemma trapezium_sound : forall xs, (2 <= length xs)%nat -> StronglySorted Rge xs -> (forall x, In x xs -> x <= 0) ->
    length (x_trapezium A (map XNum xs)) = length xs /\
    (forall i, (i < length xs)%nat -> at_most 0 (nth i (x_trapezium A (map XNum xs)) XNan)) /\
    exists x, nth (length xs - 1) (x_trapezium A (map XNum xs)) XNan = XNum x.
Proof.
  intros xs Hl Hs Hn. destruct xs as [|x0 [|x1 rest]]; cbn [length] in Hl; try lia.
  set (l := x0 :: x1 :: rest) in *. unfold x_trapezium.
  change (map XNum l) with (XNum x0 :: XNum x1 :: map XNum rest). cbv iota.
  change (XNum x0 :: XNum x1 :: map XNum rest) with (map XNum l).
  set (mid := map (fun d => xsub A d (xlog A (XNum 2))) (map2 (x_log_subtract A) (map XNum l) (map XNum rest))).
  assert (Hle : forall i j, (i <= j)%nat -> (j < length l)%nat -> nth j l 0 <= nth i l 0).
  { intros i j Hij Hj. destruct (Nat.eq_dec i j) as [->|]; [lra|].
    clear - Hs Hij Hj n. revert i j Hij Hj n. induction Hs as [|a l0 Hs IH F]; intros i j Hij Hj n; [cbn in Hj; lia|].
    destruct j as [|j]; [lia|]. cbn in Hj. destruct i as [|i].
    - cbn. rewrite Forall_forall in F. specialize (F (nth j l0 0) ltac:(apply nth_In; lia)). lra.
    - cbn. apply IH; lia. }
  assert (Hlm : length mid = length rest).
  { unfold mid, map2. rewrite !map_length, combine_length, !map_length. apply Nat.min_r. unfold l. cbn [length]. lia. }
  assert (Hmid : forall i, (i < length rest)%nat -> at_most 0 (nth i mid XNan)).
  { intros i Hi. unfold mid.
    rewrite (nth_indep _ XNan (xsub A XNan (xlog A (XNum 2)))) by (unfold mid in Hlm; lia).
    rewrite (map_nth (fun d => xsub A d (xlog A (XNum 2)))). apply minus_log2. unfold map2.
    set (f := fun p => x_log_subtract A (fst p) (snd p)).
    rewrite (nth_indep _ XNan (f (XNum 0, XNum 0))).
    2: { rewrite map_length, combine_length, !map_length. rewrite Nat.min_r by (unfold l; cbn [length]; lia). auto. }
    rewrite map_nth. unfold f.
    assert (Hc : nth i (combine (map XNum l) (map XNum rest)) (XNum 0, XNum 0) = (XNum (nth i l 0), XNum (nth i rest 0))).
    { rewrite combine_nth_min by (rewrite map_length; unfold l; cbn; lia). rewrite !map_nth. auto. }
    rewrite Hc. cbn [fst snd]. change (nth i rest 0) with (nth (S (S i)) l 0). apply subtract_sound.
    - apply Hle; [lia|]. unfold l. cbn. lia.
    - apply Hn, nth_In. unfold l. cbn. lia. }
  rewrite map_length.
  replace (nth (length l - 2) (map XNum l) XNan) with (XNum (nth (length l - 2) l 0)).
  2: { rewrite (nth_indep _ XNan (XNum 0)) by (rewrite map_length; unfold l; cbn; lia). rewrite map_nth. auto. }
  replace (nth (length l - 1) (map XNum l) XNan) with (XNum (nth (length l - 1) l 0)).
  2: { rewrite (nth_indep _ XNan (XNum 0)) by (rewrite map_length; unfold l; cbn; lia). rewrite map_nth. auto. }
  destruct (half_sound (nth (length l - 2) l 0) (nth (length l - 1) l 0)) as (z & Hz & Hz1 & Hz2).
  { apply Hle; [lia|]. unfold l. cbn. lia. }
  { apply Hn, nth_In. unfold l. cbn. lia. }
  rewrite Hz.
  assert (Hlen : length l = S (length mid + 1)) by (rewrite Hlm; unfold l; cbn; lia).
  split; [cbn [length]; rewrite app_length; cbn [length]; lia|]. split.
  - intros [|i] Hi.
    + cbn [nth]. apply first_sound; [apply (Hle 0%nat 1%nat); unfold l; cbn; lia|apply Hn; left; auto].
    + cbn [nth]. destruct (Nat.lt_ge_cases i (length mid)) as [Hi2|Hi2].
      * rewrite app_nth1 by auto. apply Hmid. lia.
      * rewrite app_nth2 by auto. replace (i - length mid)%nat with 0%nat by lia. right. exists z. auto.
  - exists z. rewrite Hlen. replace (S (length mid + 1) - 1)%nat with (S (length mid)) by lia. cbn [nth].
    rewrite app_nth2 by lia. rewrite Nat.sub_diag. auto.
Qed.
End order.
