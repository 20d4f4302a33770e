(** C52, C53, C54: the arrays, the posterior mass and the kernel density
    estimate used for the plots. *)
From Coq Require Import Lra.
From Verif Require Import Base ModelRun ModelReal ModelStats ModelPlots SpecReal ProofBase ProofReal ProofStats.
Local Open Scope R_scope.

(** ** C52 *)
Lemma evens_interleave : forall (a b : list R), length a = length b -> evens (interleave a b) = a.
Proof.
  induction a as [|x a IH]; intros [|y b] H; cbn [length] in H; try discriminate; auto.
  cbn [interleave evens]. f_equal. apply IH. lia.
Qed.
Lemma odds_interleave : forall (a b : list R), length a = length b -> odds (interleave a b) = b.
Proof.
  induction a as [|x a IH]; intros [|y b] H; cbn [length] in H; try discriminate; auto.
  assert (Hl : length a = length b) by lia. specialize (IH b Hl).
  unfold odds in *. cbn [interleave tl]. destruct a as [|x' a], b as [|y' b]; cbn [length] in Hl; try lia; auto.
  cbn [interleave tl] in *. cbn [evens] in *. f_equal. exact IH.
Qed.
Lemma interleave_some : forall (a b : list R), interleave (map Some a) (map Some b) = map Some (interleave a b).
Proof. induction a; intros [|y b]; cbn; auto. rewrite IHa. auto. Qed.
Lemma finite_part_app : forall a b, finite_part (a ++ b) = finite_part a ++ finite_part b.
Proof. intros. unfold finite_part. apply flat_map_app. Qed.
Lemma finite_part_nones : forall n, finite_part (repeat None n) = [].
Proof. induction n; cbn; auto. Qed.
Lemma interleave_length : forall A (a b : list A), length a = length b -> length (interleave a b) = (2 * length a)%nat.
Proof.
  induction a as [|x a IH]; intros [|y b] H; cbn [length] in H; try discriminate; auto.
  cbn [interleave length]. rewrite IH by lia. lia.
Qed.

(** One row: any padding with nan, anywhere after the samples. *)
Theorem C52_row : forall A B (func : A -> list R -> list R -> B) x values weights k,
    length values = length weights ->
    alternate_helper func x (interleave (map Some values) (map Some weights) ++ repeat None k)
    = func x values weights.
Proof.
  intros. unfold alternate_helper. rewrite finite_part_app, finite_part_nones, app_nil_r, interleave_some, finite_part_some.
  rewrite evens_interleave, odds_interleave by auto. reflexivity.
Qed.

Lemma list_max_ge : forall l x, In x l -> (x <= list_max l)%nat.
Proof.
  intros l x H. assert (H1 : Forall (fun k => (k <= list_max l)%nat) l) by (apply list_max_le; auto).
  rewrite Forall_forall in H1. auto.
Qed.

(** The array given to fgivenx: every bootstrap replication gets back its own
    values and weights, whatever the sizes of the replications; all rows have
    the same length. *)
Theorem C52_samples_array : forall A B (func : A -> list R -> list R -> B) x (f : quantity)
    (bs : list (list (list Z) * list R)) (vals : list (list Z) -> list R),
    bs <> [] ->
    (forall th w, In (th, w) bs -> f th = Ok (map Some (vals th)) /\
                                   length (vals th) = length th /\ length w = length th) ->
    exists arr, samples_array bs f = Ok arr /\
      map (alternate_helper func x) arr = map (fun p => func x (vals (fst p)) (snd p)) bs /\
      exists width, forall row, In row arr -> length row = width.
Proof.
  intros A B func x f bs vals Hn H. unfold samples_array.
  set (width := (2 * list_max (map (fun p => length (fst p)) bs))%nat).
  assert (Hw : forall th w, In (th, w) bs -> (2 * length th <= width)%nat).
  { intros th w Hi. unfold width. apply Nat.mul_le_mono_l, list_max_ge, in_map_iff.
    exists (th, w). auto. }
  clearbody width.
  set (g := fun p => let! v := f (fst p) in sample_row width (length (fst p)) v (map Some (snd p))).
  assert (Hg : exists arr, mapM g bs = Ok arr /\
      map (alternate_helper func x) arr = map (fun p => func x (vals (fst p)) (snd p)) bs /\
      forall row, In row arr -> length row = width).
  { clear Hn. induction bs as [|[th w] bs IH]; [exists []; repeat split; auto; intros row []|].
    destruct IH as (arr & H1 & H2 & H3).
    { intros; apply H; right; auto. } { intros; eapply Hw; right; eauto. }
    destruct (H th w (or_introl eq_refl)) as (Hf & Hv & Hlw). pose proof (Hw th w (or_introl eq_refl)) as Hle.
    exists ((interleave (map Some (vals th)) (map Some w) ++ repeat None (width - 2 * length th)) :: arr).
    split; [|split].
    - cbn [mapM]. rewrite H1. unfold g. cbn [fst snd]. rewrite Hf. cbn [rbind]. unfold sample_row.
      rewrite !map_length, Hv, Hlw, Nat.eqb_refl. reflexivity.
    - cbn [map fst snd]. rewrite C52_row by lia. rewrite H2. reflexivity.
    - intros row [<-|Hr]; [|auto]. rewrite app_length, interleave_length, repeat_length, map_length by (rewrite !map_length; lia).
      lia. }
  destruct Hg as (arr & H1 & H2 & H3). exists arr. split; [|split; [auto|exists width; auto]].
  destruct bs; [congruence|exact H1].
Qed.

(** Without the hypothesis that no value is nan the claim fails: here both
    values are nan, and the function is called with a weight as sample. *)
Theorem C52_nan_refuted : exists row : list fl,
    sample_row 4 2 [None; None] [Some 1; Some 2] = Ok row /\
    alternate_helper (fun _ samples weights => (samples, weights)) tt row = ([1], [2]).
Proof. eexists. split; reflexivity. Qed.

Example C52_example :
  samples_array [([[1%Z]; [2%Z]], [6; 7]); ([[3%Z]; [4%Z]; [5%Z]], [8; 9; 10])]
                (fun th => Ok (map (fun t => Some (IZR (hd 0%Z t))) th))
  = Ok [[Some 1; Some 6; Some 2; Some 7; None; None];
        [Some 3; Some 8; Some 4; Some 9; Some 5; Some 10]].
Proof. reflexivity. Qed.

(** ** C53 *)

(** Trapezium rule. *)
Definition integral (x y : list R) : R :=
  sumR (map (fun i => (nth (S i) x 0 - nth i x 0) * ((nth i y 0 + nth (S i) y 0) / 2))
            (seq 0 (length x - 1))).

Lemma integral_cons : forall x0 x1 x y0 y1 y,
    integral (x0 :: x1 :: x) (y0 :: y1 :: y) = (x1 - x0) * ((y0 + y1) / 2) + integral (x1 :: x) (y1 :: y).
Proof.
  intros. unfold integral. cbn [length]. replace (S (S (length x)) - 1)%nat with (S (length x)) by lia.
  cbn [seq map sumR]. f_equal. replace (S (length x) - 1)%nat with (length x) by lia.
  rewrite <- seq_shift, map_map. reflexivity.
Qed.
Lemma trapz_cons : forall x0 x1 x y0 y1 y,
    trapz (y0 :: y1 :: y) (x0 :: x1 :: x) = (x1 - x0) * (y0 + y1) / 2 + trapz (y1 :: y) (x1 :: x).
Proof. reflexivity. Qed.
Lemma trapz_integral : forall x y, length x = length y -> trapz y x = integral x y.
Proof.
  induction x as [|x0 x IH]; intros [|y0 y] H; cbn [length] in H; try discriminate; auto.
  destruct x as [|x1 x], y as [|y1 y]; cbn [length] in H; try discriminate; auto.
  rewrite integral_cons, <- IH by (cbn [length]; lia). cbn [trapz]. lra.
Qed.
Lemma trapz_scale : forall c x y, trapz (map (fun v => v / c) y) x = trapz y x / c.
Proof.
  intros c x y. revert x. induction y as [|y0 y IH]; intros x; [cbn; unfold Rdiv; lra|].
  destruct x as [|x0 x]; [destruct y; cbn; unfold Rdiv; lra|].
  destruct y as [|y1 y]; [cbn; unfold Rdiv; lra|]. destruct x as [|x1 x]; [cbn; unfold Rdiv; lra|].
  specialize (IH (x1 :: x)). cbn [map] in *. cbn [trapz] in *. rewrite IH. unfold Rdiv. lra.
Qed.
Lemma trapz_nonneg : forall x y, (forall i, (S i < length x)%nat -> nth i x 0 <= nth (S i) x 0) ->
    (forall v, In v y -> 0 < v) -> 0 <= trapz y x.
Proof.
  intros x y. revert x. induction y as [|y0 y IH]; intros x Hx Hy; [cbn; lra|].
  destruct x as [|x0 x]; [destruct y; cbn; lra|].
  destruct y as [|y1 y], x as [|x1 x]; try (cbn; lra).
  assert (H := IH (x1 :: x)). assert (0 <= trapz (y1 :: y) (x1 :: x)).
  { apply H. - intros i Hi. apply (Hx (S i)). cbn [length] in *. lia.
    - intros v Hv. apply Hy. right; auto. }
  assert (x0 <= x1) by (apply (Hx 0%nat); cbn [length]; lia).
  assert (0 < y0) by (apply Hy; left; auto). assert (0 < y1) by (apply Hy; right; left; auto).
  cbn [trapz] in *. assert (0 <= (x1 - x0) * (y0 + y1)) by (apply Rmult_le_pos; lra). lra.
Qed.
Lemma trapz_pos : forall x y, length x = length y ->
    (forall i, (S i < length x)%nat -> nth i x 0 <= nth (S i) x 0) ->
    nth 0 x 0 < nth (length x - 1) x 0 ->
    (forall v, In v y -> 0 < v) -> 0 < trapz y x.
Proof.
  intros x y. revert x. induction y as [|y0 y IH]; intros [|x0 x] Hl Hx Hne Hy; cbn [length] in Hl; try discriminate.
  - cbn in Hne. lra.
  - destruct y as [|y1 y], x as [|x1 x]; cbn [length] in Hl; try discriminate.
    + cbn in Hne. lra.
    + assert (H01 : x0 <= x1) by (apply (Hx 0%nat); cbn [length]; lia).
      assert (0 < y0) by (apply Hy; left; auto). assert (0 < y1) by (apply Hy; right; left; auto).
      assert (Hx' : forall i, (S i < length (x1 :: x))%nat -> nth i (x1 :: x) 0 <= nth (S i) (x1 :: x) 0).
      { intros i Hi. apply (Hx (S i)). cbn [length] in *. lia. }
      assert (Hy' : forall v, In v (y1 :: y) -> 0 < v) by (intros; apply Hy; right; auto).
      pose proof (trapz_nonneg (x1 :: x) (y1 :: y) Hx' Hy') as Hn.
      rewrite trapz_cons.
      destruct (Rle_lt_or_eq_dec _ _ H01) as [Hlt|Heq].
      * assert (0 < (x1 - x0) * (y0 + y1)) by (apply Rmult_lt_0_compat; lra). lra.
      * assert (0 < trapz (y1 :: y) (x1 :: x)).
        { apply IH; auto. cbn [length nth] in *. replace (S (length x) - 1)%nat with (length x) by lia.
          replace (S (S (length x)) - 1)%nat with (S (length x)) in Hne by lia. cbn [nth] in Hne. lra. }
        assert (0 <= (x1 - x0) * (y0 + y1)) by (apply Rmult_le_pos; lra). lra.
Qed.
Lemma trapz_rev_app : forall x y, length x = length y -> trapz (rev y) (rev x) = - trapz y x.
Proof.
  assert (Hs : forall x y a a' b b', length x = length y ->
             trapz (y ++ [b; b']) (x ++ [a; a']) = trapz (y ++ [b]) (x ++ [a]) + (a' - a) * (b + b') / 2).
  { induction x as [|x0 x IH]; intros [|y0 y] a a' b b' H; cbn [length] in H; try discriminate; [cbn; lra|].
    specialize (IH y a a' b b' ltac:(lia)).
    destruct x as [|x1 x], y as [|y1 y]; cbn [length] in H; try discriminate; cbn [app trapz] in *; lra. }
  induction x as [|x0 x IH]; intros [|y0 y] H; cbn [length] in H; try discriminate; [cbn; lra|].
  destruct x as [|x1 x], y as [|y1 y]; cbn [length] in H; try discriminate; [cbn; lra|].
  specialize (IH (y1 :: y) ltac:(cbn [length]; lia)). cbn [rev] in *. rewrite <- !app_assoc.
  cbn [app]. rewrite Hs by (rewrite !rev_length; lia). rewrite IH. cbn [trapz]. lra.
Qed.

Lemma rel_pos : forall l v, In v (rel l) -> 0 < v.
Proof. intros l v H. unfold rel in H. apply in_map_iff in H as (x & <- & _). apply exp_pos. Qed.
Lemma rel_length : forall l, length (rel l) = length l.
Proof. intros. unfold rel. apply map_length. Qed.

Lemma mass_run : forall logx logl, length logx = length logl -> logx <> [] ->
    trapz (rel (map2 Rplus logx logl)) logx <> 0 ->
    let w := rel (map2 Rplus logx logl) in
    rel_posterior_mass logx logl = Ok (map Some (map (fun v => v / Rabs (trapz w logx)) w)).
Proof.
  intros logx logl Hl Hn Hz w.
  assert (Hg : forall c l, c <> 0 -> map (fun v => fdiv (Some v) (Some c)) l = map Some (map (fun v => v / c) l)).
  { intros c l Hc. rewrite map_map. apply map_ext. intros v. unfold fdiv. destruct (Req_EM_T c 0); congruence. }
  unfold rel_posterior_mass. rewrite Hl, Nat.eqb_refl. cbn [negb].
  destruct logx as [|x0 x]; [congruence|]. f_equal. apply Hg. apply Rabs_no_R0. exact Hz.
Qed.

(** Relative weights of the result: proportional to L(X) X. *)
Lemma mass_ratio : forall logx logl c i j, length logx = length logl ->
    (i < length logx)%nat -> (j < length logx)%nat ->
    let w := map (fun v => v / c) (rel (map2 Rplus logx logl)) in
    nth i w 0 * exp (nth j logx 0 + nth j logl 0) = nth j w 0 * exp (nth i logx 0 + nth i logl 0).
Proof.
  intros logx logl c i j Hl Hi Hj w.
  assert (Hw : forall k, (k < length logx)%nat ->
    nth k w 0 = exp (nth k logx 0 + nth k logl 0) * (exp (- rmax (map2 Rplus logx logl)) / c)).
  { intros k Hk. unfold w, rel. rewrite map_map.
    rewrite (nth_indep _ 0 (exp (0 - rmax (map2 Rplus logx logl)) / c))
      by (rewrite map_length, map2_length; lia).
    rewrite (map_nth (fun x => exp (x - rmax (map2 Rplus logx logl)) / c)).
    rewrite (nth_map2 _ _ _ Rplus logx logl k 0 0 0) by lia.
    unfold Rminus. rewrite exp_plus. unfold Rdiv. lra. }
  rewrite !Hw by auto. lra.
Qed.

Theorem C53_posterior_mass : forall logx logl,
    length logx = length logl ->
    (forall i, (S i < length logx)%nat -> nth i logx 0 <= nth (S i) logx 0) ->
    nth 0 logx 0 < nth (length logx - 1) logx 0 ->
    exists w, rel_posterior_mass logx logl = Ok (map Some w) /\
      length w = length logx /\
      (forall v, In v w -> 0 < v) /\
      (forall i j, (i < length logx)%nat -> (j < length logx)%nat ->
         nth i w 0 * exp (nth j logx 0 + nth j logl 0) = nth j w 0 * exp (nth i logx 0 + nth i logl 0)) /\
      integral logx w = 1.
Proof.
  intros logx logl Hl Hx Hne. set (w := rel (map2 Rplus logx logl)).
  assert (Hlw : length logx = length w) by (unfold w; rewrite rel_length, map2_length; lia).
  assert (Hp : 0 < trapz w logx) by (apply trapz_pos; auto; apply rel_pos).
  exists (map (fun v => v / Rabs (trapz w logx)) w). split; [|split; [|split; [|split]]].
  - apply mass_run; auto; [|fold w; lra]. intros ->. cbn in Hne. lra.
  - rewrite map_length. auto.
  - intros v Hv. apply in_map_iff in Hv as (u & <- & Hu). apply rel_pos in Hu. rewrite Rabs_right by lra.
    apply Rdiv_lt_0_compat; lra.
  - intros i j Hi Hj. apply mass_ratio; auto.
  - rewrite <- trapz_integral by (rewrite map_length; auto). rewrite trapz_scale, Rabs_right by lra. field. lra.
Qed.

(** logx in descending order (as for a run): the integral over logx ascending
    is again 1. *)
Theorem C53_descending : forall logx logl,
    length logx = length logl ->
    (forall i, (S i < length logx)%nat -> nth (S i) logx 0 <= nth i logx 0) ->
    nth (length logx - 1) logx 0 < nth 0 logx 0 ->
    exists w, rel_posterior_mass logx logl = Ok (map Some w) /\
      length w = length logx /\ (forall v, In v w -> 0 < v) /\
      integral (rev logx) (rev w) = 1.
Proof.
  intros logx logl Hl Hx Hne. set (w := rel (map2 Rplus logx logl)).
  assert (Hlw : length logx = length w) by (unfold w; rewrite rel_length, map2_length; lia).
  assert (Hn : logx <> []) by (intros ->; cbn in Hne; lra).
  assert (Hpos : (0 < length logx)%nat) by (destruct logx; cbn [length]; [congruence|lia]).
  assert (Hp : 0 < trapz (rev w) (rev logx)).
  { apply trapz_pos.
    - rewrite !rev_length. auto.
    - intros i Hi. rewrite rev_length in Hi. rewrite !rev_nth by lia.
      replace (length logx - S i)%nat with (S (length logx - S (S i))) by lia. apply Hx. lia.
    - rewrite rev_length, !rev_nth by lia.
      replace (length logx - S (length logx - 1))%nat with 0%nat by lia. auto.
    - intros v Hv. apply in_rev in Hv. eapply rel_pos; eauto. }
  rewrite trapz_rev_app in Hp by auto.
  exists (map (fun v => v / Rabs (trapz w logx)) w). split; [|split; [|split]].
  - apply mass_run; auto. fold w. lra.
  - rewrite map_length. auto.
  - intros v Hv. apply in_map_iff in Hv as (u & <- & Hu). apply rel_pos in Hu. rewrite Rabs_left by lra.
    apply Rdiv_lt_0_compat; lra.
  - rewrite <- trapz_integral by (rewrite !rev_length, map_length; auto).
    rewrite trapz_rev_app by (rewrite map_length; auto). rewrite trapz_scale, Rabs_left by lra. field. lra.
Qed.

(** The normalisation of the likelihood does not matter. *)
Theorem C53_likelihood_scale : forall logx logl c,
    rel_posterior_mass logx (map (fun l => l + c) logl) = rel_posterior_mass logx logl.
Proof.
  intros logx logl c. unfold rel_posterior_mass. rewrite map_length.
  destruct (length logx =? length logl)%nat eqn:He; cbn [negb]; auto. apply Nat.eqb_eq in He.
  destruct logx as [|x0 x] eqn:Hx; auto. rewrite <- Hx in *.
  assert (Hw : rel (map2 Rplus logx (map (fun l => l + c) logl)) = rel (map2 Rplus logx logl)).
  { assert (Hm : map2 Rplus logx (map (fun l => l + c) logl) = map (fun v => v + c) (map2 Rplus logx logl)).
    { clear. revert logl. induction logx as [|a t IH]; intros [|b u]; auto. unfold map2 in *. cbn [combine map fst snd].
      rewrite IH. f_equal. lra. }
    rewrite Hm. unfold rel. rewrite map_map. apply map_ext. intros v. f_equal.
    set (l := map2 Rplus logx logl). assert (Hl : l <> []).
    { unfold l. destruct logl; [rewrite Hx in He; discriminate|]. rewrite Hx. discriminate. }
    destruct (rmax_spec l Hl) as [H1 H2].
    rewrite (rmax_unique (map (fun v => v + c) l) (rmax l + c)); [lra| |].
    - apply in_map_iff. eauto.
    - intros y Hy. apply in_map_iff in Hy as (z & <- & Hz). apply H2 in Hz. lra. }
  rewrite Hw. reflexivity.
Qed.

Example C53_example : exists w, rel_posterior_mass [-2; -1; 0] [3; 5; 1] = Ok (map Some w) /\
    integral [-2; -1; 0] w = 1.
Proof.
  destruct (C53_posterior_mass [-2; -1; 0] [3; 5; 1]) as (w & H1 & _ & _ & _ & H2); eauto.
  - intros [|[|i]] Hi; cbn in *; try lra; try lia.
  - cbn. lra.
Qed.

Print Assumptions C52_row.
Print Assumptions C52_samples_array.
Print Assumptions C52_nan_refuted.
Print Assumptions C53_posterior_mass.
Print Assumptions C53_descending.
Print Assumptions C53_likelihood_scale.
