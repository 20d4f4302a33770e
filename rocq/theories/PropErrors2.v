(** C41: the uncertainties given by implementation_std. *)
From Coq Require Import Lra.
From Verif Require Import Base ModelRun ModelBoot ModelParallel ModelReal ModelStats Envs
     Spec SpecRun SpecReal ProofBase ProofMonad ProofBoot ProofReal ProofStats PropErrors.
Local Open Scope R_scope.

(** The square root of x^2 - y^2, negative where this is. *)
Definition root_diff (x y : R) : R :=
  if Rle_dec (y ^ 2) (x ^ 2) then sqrt (x ^ 2 - y ^ 2) else - sqrt (y ^ 2 - x ^ 2).

Lemma signed_root : forall x y, signed_sqrt (fsub (fsq (Some x)) (fsq (Some y))) = Some (root_diff x y).
Proof.
  intros x y. cbn [fsub fsq lift1 lift2 signed_sqrt]. unfold signed_sqrt, fsub, fsq, lift1, root_diff. cbn. f_equal.
  unfold sign. set (q := x * (x * 1) - y * (y * 1)).
  destruct (Rle_dec (y * (y * 1)) (x * (x * 1))) as [H|H]; unfold q in *; clear q.
  - rewrite Rabs_pos_eq by lra. destruct (Rlt_dec 0 _) as [P|P]; [lra|]. destruct (Rlt_dec _ 0) as [N|N]; [lra|].
    replace (x * (x * 1) - y * (y * 1)) with 0 by lra. rewrite sqrt_0. lra.
  - rewrite Rabs_left by lra. destruct (Rlt_dec 0 _) as [P|P]; [lra|]. destruct (Rlt_dec _ 0) as [N|N]; [|lra].
    replace (- (x * (x * 1) - y * (y * 1))) with (y * (y * 1) - x * (x * 1)) by lra. lra.
Qed.
Lemma imp_one_inv : forall E (norm : normals E) nsim b v vu s su (w w' : world E) o,
    imp_one norm nsim b v vu s su w = (Ok o, w') -> w' = w /\
    exists sv st1 ss st2, norm v vu nsim (seeded_state b (w_rng w)) = (sv, st1) /\ norm s su nsim st1 = (ss, st2) /\
      let si := map2 (fun a c => signed_sqrt (fsub (fsq a) (fsq c))) sv ss in
      imp_std_u o = np_std si /\ imp_frac_u o = np_std (map2 fdiv si sv).
Proof.
  intros E norm nsim b v vu s su w w' o H. unfold imp_one in H. unfold wbind at 1, get_state in H.
  assert (Hacc : accepted_seed b).
  { apply wbind_Ok in H as (u & w1 & Hs & _). apply apply_seed_inv in Hs. tauto. }
  rewrite (wbind_run _ _ _ _ _ _ _ _ (apply_seed_state E b w Hacc)) in H.
  assert (Hn : forall mu sg (w : world E) l w1, normal norm mu sg nsim w = (Ok l, w1) ->
            exists st, norm mu sg nsim (w_rng w) = (l, st) /\ w1 = mkW st (w_warn w)).
  { intros mu sg w0 l w1 K. unfold normal in K. destruct sg as [x|]; [destruct (Rlt_dec x 0); [discriminate|]|];
      destruct (norm mu _ nsim (w_rng w0)) as [l' st]; injection K as <- <-; eauto. }
  apply wbind_Ok in H as (sv & w1 & H1 & H). apply Hn in H1 as (st1 & H1 & ->). cbn [w_rng w_warn] in H1.
  apply wbind_Ok in H as (ss & w2 & H2 & H). apply Hn in H2 as (st2 & H2 & ->). cbn [w_rng w_warn] in H2, H.
  cbn in H. injection H as <- <-. split; [destruct w; reflexivity|].
  exists sv, st1, ss, st2. split; auto.
Qed.
Lemma map2_seq : forall (f : R -> R -> R) xs ys n, length xs = n -> length ys = n ->
    map2 f xs ys = map (fun k => f (nth k xs 0) (nth k ys 0)) (seq 0 n).
Proof.
  intros f xs ys n Hx Hy. subst n. unfold map2. revert ys Hy. induction xs as [|x xs IH]; intros [|y ys] Hy; cbn in Hy; try discriminate; auto.
  cbn [combine map length seq fst snd nth]. f_equal. rewrite IH by lia. rewrite <- seq_shift, map_map. reflexivity.
Qed.
Lemma map2_some : forall (f : fl -> fl -> fl) g xs ys, (forall x y, In x xs -> f (Some x) (Some y) = Some (g x y)) ->
    map2 f (map Some xs) (map Some ys) = map Some (map2 g xs ys).
Proof.
  unfold map2. induction xs as [|x xs IH]; intros [|y ys] H; cbn; auto. rewrite H by (left; auto). f_equal. apply IH. intros. apply H. right. auto.
Qed.
Lemma map2_none : forall (f : fl -> fl -> fl) a b, (forall x y, x = None \/ y = None -> f x y = None) ->
    length a = length b -> In None a \/ In None b -> In None (map2 f a b).
Proof.
  unfold map2. induction a as [|x a IH]; intros [|y b] Hf Hl H; cbn in *; try lia; try (destruct H; contradiction).
  destruct H as [[->|H]|[->|H]]; [left; apply Hf; auto|right; apply IH; auto|left; apply Hf; auto|right; apply IH; auto].
Qed.
Lemma np_std_none : forall l, In None l -> np_std l = None.
Proof. intros l H. unfold np_std. rewrite all_finite_in; auto. Qed.

(** The uncertainties are standard deviations over simulated values: [sv] and
    [ss] are drawn one after the other, for each position from the same state
    (seeded, or that of the caller).  They are nan if there is a nan among
    these (or, for the fraction, a zero). *)
Theorem C41_uncertainties : forall E (norm : normals E) vals vals_u bs bs_u nsim b (w w' : world E) out i v vu s su sv st1 ss st2,
    implementation_std norm vals vals_u bs bs_u nsim b w = (Ok out, w') ->
    nth_error vals i = Some v -> nth_error vals_u i = Some vu -> nth_error bs i = Some s -> nth_error bs_u i = Some su ->
    norm v vu nsim (seeded_state b (w_rng w)) = (sv, st1) -> norm s su nsim st1 = (ss, st2) ->
    length sv = nsim -> length ss = nsim -> (2 <= nsim)%nat ->
    exists o, nth_error out i = Some o /\
      (forall xs ys, sv = map Some xs -> ss = map Some ys ->
         let d := fun k => root_diff (nth k xs 0) (nth k ys 0) in
         imp_std_u o = Some (sqrt (variance (map d (seq 0 nsim)))) /\
         ((forall x, In x xs -> x <> 0) ->
            imp_frac_u o = Some (sqrt (variance (map (fun k => d k / nth k xs 0) (seq 0 nsim))))) /\
         (In 0 xs -> imp_frac_u o = None)) /\
      (In None sv \/ In None ss -> imp_std_u o = None /\ imp_frac_u o = None).
Proof.
  intros E norm vals vals_u bs bs_u nsim b w w' out i v vu s su sv st1 ss st2 H V VU S SU N1 N2 L1 L2 Hn.
  unfold implementation_std in H. destruct (_ && _)%bool eqn:HL; [|discriminate].
  apply andb_true_iff in HL as (HL & HL3). apply andb_true_iff in HL as (HL1 & HL2).
  apply Nat.eqb_eq in HL1, HL2, HL3.
  assert (Hp : nth_error (combine (combine vals vals_u) (combine bs bs_u)) i = Some ((v, vu), (s, su))).
  { clear - V VU S SU. revert vals vals_u bs bs_u V VU S SU.
    induction i as [|i IH]; intros [|a vals] [|c vals_u] [|d bs] [|e bs_u] V VU S SU; cbn in *; try discriminate.
    - congruence.
    - apply IH; auto. }
  revert H Hp. generalize (combine (combine vals vals_u) (combine bs bs_u)) as ps. intros ps H Hp.
  assert (G : exists o, imp_one norm nsim b v vu s su w = (Ok o, w) /\ nth_error out i = Some o).
  { clear - H Hp. revert i out H Hp. induction ps as [|[[v1 vu1] [s1 su1]] ps IH]; intros i out H Hp; [destruct i; discriminate|].
    cbn [wmapM] in H. apply wbind_Ok in H as (o & w1 & H1 & H). destruct (imp_one_inv _ _ _ _ _ _ _ _ _ _ _ H1) as (-> & _).
    apply wbind_Ok in H as (os & w2 & H2 & H). cbn in H. injection H as <- <-.
    destruct i as [|i]; cbn in Hp.
    - injection Hp as <- <- <- <-. exists o. split; auto.
    - destruct (IH i os H2 Hp) as (o' & A & B). exists o'. auto. }
  destruct G as (o & G1 & G2). exists o. split; [exact G2|].
  destruct (imp_one_inv _ _ _ _ _ _ _ _ _ _ _ G1) as (_ & sv' & st1' & ss' & st2' & K1 & K2 & K3 & K4).
  rewrite N1 in K1. injection K1 as <- <-. rewrite N2 in K2. injection K2 as <- <-. split.
  - intros xs ys -> -> d. rewrite map_length in L1, L2.
    rewrite (map2_some _ root_diff) in K3, K4 by (intros; apply signed_root).
    assert (D : map2 root_diff xs ys = map d (seq 0 nsim)) by (apply map2_seq; auto).
    rewrite D in K3, K4.
    split; [|split].
    + rewrite K3. unfold np_std. rewrite all_finite_some. apply std_variance. rewrite map_length, seq_length. lia.
    + intros Hx. rewrite K4.
      assert (Q : map2 fdiv (map Some (map d (seq 0 nsim))) (map Some xs) = map Some (map2 Rdiv (map d (seq 0 nsim)) xs)).
      { clear - Hx. generalize (map d (seq 0 nsim)) as ds. unfold map2. induction xs as [|x xs IH]; intros [|z ds]; cbn; auto.
        destruct (Req_EM_T x 0) as [E0|_]; [exfalso; apply (Hx x); [left|]; auto|]. f_equal. apply IH. intros. apply Hx. right. auto. }
      rewrite Q, (map2_seq Rdiv _ _ nsim) by (rewrite ?map_length, ?seq_length; auto).
      unfold np_std. rewrite all_finite_some, std_variance by (rewrite map_length, seq_length; lia).
      do 3 f_equal. apply map_ext_in. intros k Hk. apply in_seq in Hk. f_equal.
      rewrite (nth_indep _ 0 (d 0%nat)) by (rewrite map_length, seq_length; lia).
      rewrite (map_nth d), seq_nth by lia. reflexivity.
    + intros H0. rewrite K4. apply np_std_none.
      assert (Ld : length (map d (seq 0 nsim)) = length xs) by (rewrite map_length, seq_length; auto).
      revert Ld H0. clear. generalize (map d (seq 0 nsim)) as ds. unfold map2. induction xs as [|x xs IH]; intros [|z ds] Hl H0; cbn in *; try lia; try contradiction.
      destruct H0 as [->|H0]; [left; destruct (Req_EM_T 0 0); congruence|right; apply IH; auto].
  - intros Hnone.
    assert (M : In None (map2 (fun a c => signed_sqrt (fsub (fsq a) (fsq c))) sv ss)).
    { apply map2_none; [|lia|exact Hnone]. intros [x|] [y|] [Q|Q]; try discriminate; reflexivity. }
    split; [rewrite K3; apply np_std_none; auto|]. rewrite K4. apply np_std_none.
    apply map2_none.
    + intros [x|] [y|] [Q|Q]; try discriminate; reflexivity.
    + unfold map2. rewrite map_length, combine_length. lia.
    + left. exact M.
Qed.
Print Assumptions C41_uncertainties.
(** Draws 5, 13 and 3, 12 at each position: roots 4 and 5. *)
Example C41_uncertainties_example :
    let norm : normals (script_env []) := fun mu _ _ st => (match mu with Some x => if Req_EM_T x 7 then [Some 5; Some 13] else [Some 3; Some 12] | None => [] end, st) in
    exists o, implementation_std norm [Some 7] [Some 1] [Some 2] [Some 0] 2 (BInt 0) (@mkW (script_env []) [] []) = (Ok [o], @mkW (script_env []) [] []) /\
      imp_std_u o = Some (sqrt (variance [4; 5])) /\ imp_frac_u o = Some (sqrt (variance [4 / 5; 5 / 13])).
Proof.
  intros norm.
  destruct (C41_implementation_std (script_env []) norm [Some 7] [Some 1] [Some 2] [Some 0] 2 (BInt 0)
    (@mkW (script_env []) [] [])) as (out & H1 & H2 & _ & _); auto; [cbn; lia|..].
  { intros u [<-|[<-|[]]]; cbn; lra. }
  destruct (C41_uncertainties _ norm _ _ _ _ _ _ _ _ out 0%nat (Some 7) (Some 1) (Some 2) (Some 0) [Some 5; Some 13] [] [Some 3; Some 12] [] H1)
    as (o & Ho & Hf & _); auto.
  { unfold norm. cbn. destruct (Req_EM_T 7 7); [reflexivity|congruence]. }
  { unfold norm. cbn. destruct (Req_EM_T 2 7); [lra|reflexivity]. }
  destruct out as [|o' [|]]; try discriminate. cbn in Ho. injection Ho as ->. exists o. split; [exact H1|].
  destruct (Hf [5; 13] [3; 12] eq_refl eq_refl) as (F1 & F2 & _).
  assert (R1 : root_diff 5 3 = 4).
  { unfold root_diff. destruct (Rle_dec _ _); [|nra]. replace (5 ^ 2 - 3 ^ 2) with (4 * 4) by ring. apply sqrt_square. lra. }
  assert (R2 : root_diff 13 12 = 5).
  { unfold root_diff. destruct (Rle_dec _ _); [|nra]. replace (13 ^ 2 - 12 ^ 2) with (5 * 5) by ring. apply sqrt_square. lra. }
  rewrite F1, F2 by (intros x [<-|[<-|[]]]; lra). cbn [map seq nth]. rewrite R1, R2. auto.
Qed.
