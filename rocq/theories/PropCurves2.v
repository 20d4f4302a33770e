(** C78: kde_plot_df. *)
From Coq Require Import Lra Reals.
From Verif Require Import Base ModelRun ModelReal ModelStats ModelPlots ModelCurves ProofBase ProofReal ProofStats
  SpecReal PropKde PropCurves.
Local Open Scope R_scope.

Lemma in_enumerate : forall A (l : list A) i x, In (i, x) (combine (seq 0 (length l)) l) <-> nth_error l i = Some x.
Proof.
  intros A l. assert (H : forall k i x, In (i, x) (combine (seq k (length l)) l) <->
                            (k <= i)%nat /\ nth_error l (i - k) = Some x).
  { induction l as [|a l IH]; intros k i x; cbn [length seq combine In].
    - split; [tauto|]. intros [_ H]. destruct (i - k)%nat; discriminate.
    - rewrite IH. split.
      + intros [H|[H1 H2]].
        * injection H as <- <-. split; auto. rewrite Nat.sub_diag. auto.
        * split; [lia|]. replace (i - k)%nat with (S (i - S k)) by lia. auto.
      + intros [H1 H2]. destruct (Nat.eq_dec i k) as [->|Hn].
        * rewrite Nat.sub_diag in H2. injection H2 as ->. auto.
        * right. split; [lia|]. replace (i - k)%nat with (S (i - S k)) in H2 by lia. auto. }
  intros i x. rewrite H, Nat.sub_0_r. split; [tauto|]. split; [lia|auto].
Qed.
Lemma forall2_enumerate : forall A B (P : nat * A -> B -> Prop) (l : list A) ys,
    Forall2 P (combine (seq 0 (length l)) l) ys <->
    length ys = length l /\
    forall i x y, nth_error l i = Some x -> nth_error ys i = Some y -> P (i, x) y.
Proof.
  intros A B P l. assert (H : forall k ys, Forall2 P (combine (seq k (length l)) l) ys <->
      length ys = length l /\ forall i x y, nth_error l i = Some x -> nth_error ys i = Some y -> P ((k + i)%nat, x) y).
  { induction l as [|a l IH]; intros k ys; cbn [length seq combine].
    - split.
      + intros Hf. inversion Hf. split; auto. intros [|i] x y Hx; discriminate.
      + intros [Hl _]. destruct ys; [constructor|discriminate].
    - split.
      + intros Hf. inversion Hf as [|? y0 ? ys0 H1 H2]; subst. apply IH in H2 as [H2 H3]. cbn [length].
        split; [lia|]. intros [|i] x y Hx Hy; cbn [nth_error] in *.
        * injection Hx as <-. injection Hy as <-. rewrite Nat.add_0_r. auto.
        * rewrite <- Nat.add_succ_comm. eauto.
      + intros [Hl Hf]. destruct ys as [|y0 ys]; [discriminate|]. constructor.
        * specialize (Hf 0%nat a y0 eq_refl eq_refl). rewrite Nat.add_0_r in Hf. auto.
        * apply IH. split; [cbn [length] in Hl; lia|]. intros i x y Hx Hy.
          specialize (Hf (S i) x y Hx Hy). rewrite Nat.add_succ_comm. auto. }
  intros ys. apply (H 0%nat).
Qed.
Lemma mapM_total : forall A B (f : A -> res B) l, (exists ys, mapM f l = Ok ys) <->
    forall x, In x l -> exists y, f x = Ok y.
Proof.
  intros A B f l. split.
  - intros (ys & H) x Hx. apply mapM_Ok in H. induction H; [destruct Hx|]. destruct Hx as [->|Hx]; eauto.
  - intros H. induction l as [|x l IH]; [exists []; auto|].
    destruct (H x (or_introl eq_refl)) as (y & Hy). destruct IH as (ys & Hys); [intros; apply H; right; auto|].
    exists (y :: ys). cbn [mapM]. rewrite Hy. cbn [rbind]. rewrite Hys. auto.
Qed.

(** The frames for which the only problems can be those of the layout. *)
Definition plottable (kde : list R -> list R -> res (list R)) (df : list (list (Z * list R))) : Prop :=
  df <> [] /\
  (forall rows name samps, In rows df -> In (name, samps) rows -> samps <> []) /\
  (forall samps sup, samps <> [] -> exists pdf, kde samps sup = Ok pdf).

Lemma support_ok : forall cells, (forall c, In c cells -> c <> []) <-> exists s, support cells = Ok s.
Proof.
  intros cells. unfold support. split.
  - intros H. replace (existsb (fun c => (length c =? 0)%nat) cells) with false; [eauto|].
    symmetry. apply not_true_iff_false. intros He. apply existsb_exists in He as (c & Hc & Hl).
    apply Nat.eqb_eq in Hl. apply (H c Hc). destruct c; [auto|discriminate].
  - intros (s & Hs) c Hc ->. replace (existsb _ cells) with true in Hs; [discriminate|].
    symmetry. apply existsb_exists. exists []. split; auto.
Qed.
Lemma axis_ok : forall nrows ncols nax, (1 <= nrows)%nat -> (1 <= ncols)%nat ->
    ((exists a, axis nrows ncols nax = Ok a) <-> (2 <= ncols)%nat /\ (nax < nrows * ncols)%nat).
Proof.
  intros nrows ncols nax Hr Hc. unfold axis.
  destruct (nrows =? 1)%nat eqn:E1; destruct (ncols =? 1)%nat eqn:E2.
  - apply Nat.eqb_eq in E2. split; [intros (a & H); discriminate|lia].
  - apply Nat.eqb_eq in E1. apply Nat.eqb_neq in E2. destruct (nax <? ncols)%nat eqn:E3.
    + apply Nat.ltb_lt in E3. split; [intros; split; nia|eauto].
    + apply Nat.ltb_ge in E3. split; [intros (a & H); discriminate|nia].
  - apply Nat.eqb_eq in E2. split; [intros (a & H); discriminate|lia].
  - apply Nat.eqb_neq in E2. destruct (nax / ncols <? nrows)%nat eqn:E3.
    + apply Nat.ltb_lt in E3. split; [|eauto]. intros _. split; [lia|].
      pose proof (Nat.div_mod nax ncols ltac:(lia)). pose proof (Nat.mod_upper_bound nax ncols ltac:(lia)). nia.
    + apply Nat.ltb_ge in E3. split; [intros (a & H); discriminate|]. intros [_ H]. exfalso.
      assert (nax / ncols < nrows)%nat by (apply Nat.div_lt_upper_bound; lia). lia.
Qed.

Lemma layout : forall (py3 : bool) kde df nrows ncols normalize legend nc, plottable kde df ->
    nc = match ncols with
         | Some n => n
         | None => if py3 then ((length df + nrows - 1) / nrows)%nat else (length df / nrows)%nat
         end ->
    ((exists out, kde_plot_df py3 kde df nrows ncols normalize legend = Ok out) <->
     (1 <= nrows)%nat /\ (2 <= nc)%nat /\ (length df <= nrows * nc)%nat).
Proof.
  intros py3 kde df nrows ncols normalize legend nc (Hne & Hcell & Hkde) Hnc. unfold kde_plot_df. rewrite <- Hnc.
  destruct (nrows =? 0)%nat eqn:E0.
  { apply Nat.eqb_eq in E0. split; [intros (o & H); discriminate|lia]. } apply Nat.eqb_neq in E0.
  destruct (nc =? 0)%nat eqn:E1.
  { apply Nat.eqb_eq in E1. split; [intros (o & H); discriminate|lia]. } apply Nat.eqb_neq in E1.
  set (f := fun '(nax, rows) => kde_column kde normalize nrows nc nax rows).
  assert (Hf : forall i rows, In rows df -> (exists y, f (i, rows) = Ok y) <-> (2 <= nc)%nat /\ (i < nrows * nc)%nat).
  { intros i rows Hr. rewrite <- (axis_ok nrows nc i) by lia. unfold f, kde_column.
    destruct (axis nrows nc i) as [a|]; cbn [rbind].
    2:{ split; intros (y & H); discriminate. }
    destruct (proj1 (support_ok (map snd rows))) as (sup & ->).
    { intros c Hc. apply in_map_iff in Hc as ((name & samps) & <- & Hc). eapply Hcell; eauto. }
    cbn [rbind]. split; [eauto|]. intros _.
    match goal with |- context [mapM ?g rows] =>
      destruct (proj2 (mapM_total _ _ g rows)) as (ls & ->) end.
    - intros (name & samps) Hi. destruct (Hkde samps sup) as (pdf & ->); [eapply Hcell; eauto|]. cbn [rbind]. eauto.
    - cbn [rbind]. eauto. }
  assert (Hm : (exists cols, mapM f (combine (seq 0 (length df)) df) = Ok cols) <->
            (2 <= nc)%nat /\ (length df <= nrows * nc)%nat).
  { rewrite mapM_total. split.
    - intros H.
      assert (Hl : (0 < length df)%nat) by (destruct df; [congruence|cbn [length]; lia]).
      destruct (nth_error df (length df - 1)) as [rows|] eqn:El.
      2:{ apply nth_error_None in El. lia. }
      destruct (proj1 (Hf (length df - 1)%nat rows (nth_error_In _ _ El))) as [H1 H2].
      + apply H. apply in_enumerate. auto.
      + lia.
    - intros [H1 H2] (i & rows) Hi. apply in_enumerate in Hi. apply Hf; [eapply nth_error_In; eauto|].
      assert (i < length df)%nat by (apply nth_error_Some; congruence). lia. }
  split.
  - intros (out & Ho). destruct (mapM f (combine (seq 0 (length df)) df)) as [cols|] eqn:Ec; [|discriminate].
    destruct Hm as [Hm _]. split; [lia|]. apply Hm. eauto.
  - intros (H1 & H2). apply Hm in H2 as (cols & Ec). rewrite Ec. cbn [rbind]. destruct legend; [|eauto].
    destruct cols; [|eauto]. apply mapM_Ok in Ec. apply forall2_enumerate in Ec as [Hl _].
    destruct df; [congruence|discriminate].
Qed.

(** ** Layouts *)

(** With both numbers given the call works exactly if there are at least two
    columns of subplots, and enough subplots. *)
Theorem C78_layout : forall py3 kde df nrows ncols normalize legend, plottable kde df ->
    ((exists out, kde_plot_df py3 kde df nrows (Some ncols) normalize legend = Ok out) <->
     (1 <= nrows)%nat /\ (2 <= ncols)%nat /\ (length df <= nrows * ncols)%nat).
Proof. intros. apply layout; auto. Qed.
Print Assumptions C78_layout.

(** With the default for ncols: exactly if there are more columns than nrows (so
    never for one column).  Under Python 2.7: exactly if nrows divides the number of
    columns, and is smaller. *)
Theorem C78_default_layout : forall kde df nrows normalize legend, plottable kde df ->
    ((exists out, kde_plot_df true kde df nrows None normalize legend = Ok out) <->
     (1 <= nrows < length df)%nat) /\
    ((exists out, kde_plot_df false kde df nrows None normalize legend = Ok out) <->
     (1 <= nrows < length df)%nat /\ Nat.divide nrows (length df)).
Proof.
  intros kde df nrows normalize legend Hp. split.
  - rewrite layout by eauto. set (k := length df). split.
    + intros (H1 & H2 & H3). split; [auto|].
      assert (~ (k <= nrows)%nat); [|lia]. intros Hk.
      assert (((k + nrows - 1) / nrows < 2)%nat) by (apply Nat.div_lt_upper_bound; lia). lia.
    + intros [H1 H2]. split; auto.
      pose proof (Nat.div_mod (k + nrows - 1) nrows ltac:(lia)).
      pose proof (Nat.mod_upper_bound (k + nrows - 1) nrows ltac:(lia)). split; [|nia].
      apply Nat.div_le_lower_bound; lia.
  - rewrite layout by eauto. set (k := length df). split.
    + intros (H1 & H2 & H3).
      pose proof (Nat.div_mod k nrows ltac:(lia)).
      split; [nia|]. exists (k / nrows)%nat. nia.
    + intros ([H1 H2] & (q & Hq)). split; auto. rewrite Hq, Nat.div_mul by lia. split; [nia|nia].
Qed.
Print Assumptions C78_default_layout.
(** The errors for one column: TypeError for one row (the default), IndexError
    otherwise. *)
Theorem C78_one_column : forall kde rows nrows normalize legend, (1 <= nrows)%nat ->
    kde_plot_df true kde [rows] nrows None normalize legend
    = Raise (if (nrows =? 1)%nat then TypeError else IndexError).
Proof.
  intros kde rows nrows normalize legend H. unfold kde_plot_df.
  destruct (nrows =? 0)%nat eqn:E; [apply Nat.eqb_eq in E; lia|]. cbn [length].
  replace ((1 + nrows - 1) / nrows)%nat with 1%nat.
  2:{ replace (1 + nrows - 1)%nat with nrows by lia. symmetry. apply Nat.div_same. lia. }
  cbn [Nat.eqb seq combine mapM]. unfold kde_column, axis. cbn [Nat.eqb].
  destruct (nrows =? 1)%nat; reflexivity.
Qed.
Print Assumptions C78_one_column.

(** The errors for both numbers given: ZeroDivisionError and ValueError for 0,
    TypeError for a single subplot, otherwise IndexError. *)
Theorem C78_errors : forall py3 kde df nrows ncols normalize legend e, plottable kde df ->
    kde_plot_df py3 kde df nrows (Some ncols) normalize legend = Raise e ->
    (nrows = 0%nat /\ e = ZeroDivisionError) \/
    ((1 <= nrows)%nat /\ ncols = 0%nat /\ e = ValueError) \/
    (nrows = 1%nat /\ ncols = 1%nat /\ e = TypeError) \/
    ((1 <= nrows)%nat /\ (1 <= ncols)%nat /\ (2 <= nrows * ncols)%nat /\ e = IndexError).
Proof.
  intros py3 kde df nrows ncols normalize legend e (Hne & Hcell & Hkde) H. unfold kde_plot_df in H.
  destruct (Nat.eqb_spec nrows 0) as [E0|E0]; [left; split; congruence|].
  destruct (Nat.eqb_spec ncols 0) as [E1|E1]; [right; left; repeat split; try lia; congruence|].
  right; right.
  destruct (mapM _ (combine (seq 0 (length df)) df)) as [cols|e'] eqn:Hm.
  { exfalso. cbn [rbind] in H. destruct legend; [|discriminate]. destruct cols; [|discriminate].
    destruct df; [congruence|]. cbn [length seq combine mapM] in Hm.
    destruct (kde_column kde normalize nrows ncols 0 l); cbn [rbind] in Hm; [|discriminate].
    destruct (mapM _ _) in Hm; discriminate. }
  cbn [rbind] in H. assert (e' = e) by congruence. subst e'. clear H.
  assert (Hx : exists i rows, In rows df /\ kde_column kde normalize nrows ncols i rows = Raise e).
  { assert (Hc : forall i rows, In (i, rows) (combine (seq 0 (length df)) df) -> In rows df)
      by (intros i rows Hi; eapply in_combine_r; eauto).
    revert Hm Hc. generalize (combine (seq 0 (length df)) df). induction l as [|[i rows] l IH]; cbn [mapM]; [discriminate|].
    destruct (kde_column kde normalize nrows ncols i rows) as [c|e'] eqn:Hk; cbn [rbind].
    - intros Hm Hc. apply IH; [|intros; eapply Hc; right; eauto].
      destruct (mapM _ l); cbn [rbind] in Hm; [discriminate|]. congruence.
    - intros Hm Hc. exists i, rows. split; [eapply Hc; left; eauto|congruence]. }
  destruct Hx as (i & rows & Hr & Hk). unfold kde_column in Hk.
  destruct (axis nrows ncols i) as [a|e'] eqn:Ha; cbn [rbind] in Hk.
  - exfalso. destruct (proj1 (support_ok (map snd rows))) as (sup & Hs).
    { intros c Hc. apply in_map_iff in Hc as ((name & samps) & <- & Hc). eapply Hcell; eauto. }
    rewrite Hs in Hk. cbn [rbind] in Hk.
    match type of Hk with context [mapM ?g rows] => destruct (proj2 (mapM_total _ _ g rows)) as (ls & Hls) end.
    { intros (name & samps) Hi. destruct (Hkde samps sup) as (pdf & ->); [eapply Hcell; eauto|]. cbn [rbind]. eauto. }
    rewrite Hls in Hk. discriminate.
  - assert (e' = e) by congruence. subst e'. unfold axis in Ha.
    destruct (Nat.eqb_spec nrows 1) as [E2|E2], (Nat.eqb_spec ncols 1) as [E3|E3].
    + left. repeat split; auto. congruence.
    + right. repeat split; try lia. destruct (i <? ncols)%nat; congruence.
    + right. repeat split; try lia. congruence.
    + right. repeat split; try nia. destruct (i / ncols <? nrows)%nat; congruence.
Qed.
Print Assumptions C78_errors.

(** ** What is plotted *)

(** Every column has its own subplot, counted along the rows, with a curve for each
    row of the frame; all samples of the column are within the 200 equidistant points,
    and the range of the points is 1.2 times that of the samples. *)
Theorem C78_plots : forall py3 kde df nrows ncols normalize legend cols lg,
    kde_plot_df py3 kde df nrows ncols normalize legend = Ok (cols, lg) ->
    length cols = length df /\
    exists nc, (forall n, ncols = Some n -> nc = n) /\ (length df <= nrows * nc)%nat /\
    forall i rows c, nth_error df i = Some rows -> nth_error cols i = Some c ->
      (fst (k_axes c) < nrows)%nat /\ (snd (k_axes c) < nc)%nat /\
      i = (fst (k_axes c) * nc + snd (k_axes c))%nat /\
      (rows <> [] -> exists lo hi,
         (exists name samps, In (name, samps) rows /\ In lo samps) /\
         (exists name samps, In (name, samps) rows /\ In hi samps) /\
         (forall name samps x, In (name, samps) rows -> In x samps -> lo <= x <= hi) /\
         k_support c = map (fun k => lo - 0.1 * (hi - lo) + INR k * ((hi - lo) * 1.2 / 199)) (seq 0 200)) /\
      Forall2 (fun r l => fst l = fst r /\ exists pdf, kde (snd r) (k_support c) = Ok pdf /\
                 (normalize = true -> snd l = map Some pdf) /\
                 (normalize = false -> pdf <> [] -> (forall v, In v pdf -> 0 < v) ->
                    exists ys m, snd l = map Some ys /\ length ys = length pdf /\ In 1 ys /\ 0 < m /\
                      (forall y, In y ys -> 0 < y <= 1) /\
                      forall k, (k < length ys)%nat -> nth k pdf 0 = nth k ys 0 * m))
              rows (k_lines c).
Proof.
  intros py3 kde df nrows ncols normalize legend cols lg. unfold kde_plot_df.
  destruct (nrows =? 0)%nat eqn:E0; [discriminate|]. apply Nat.eqb_neq in E0.
  set (nc := match ncols with Some n => n | None => _ end).
  destruct (nc =? 0)%nat eqn:E1; [discriminate|]. apply Nat.eqb_neq in E1.
  set (f := fun '(nax, rows) => kde_column kde normalize nrows nc nax rows).
  destruct (mapM f (combine (seq 0 (length df)) df)) as [cs|] eqn:Ec; [|discriminate]. cbn [rbind].
  intros H. assert (cs = cols).
  { destruct legend; [destruct cs; [discriminate|]|]; injection H; auto. }
  subst cs. clear H. apply mapM_Ok in Ec. apply forall2_enumerate in Ec as [Hlen Hall].
  split; auto. exists nc. split; [intros n ->; auto|].
  assert (Hax : forall i a, axis nrows nc i = Ok a -> (fst a < nrows)%nat /\ (snd a < nc)%nat /\
                 i = (fst a * nc + snd a)%nat).
  { intros i a. unfold axis. destruct (nrows =? 1)%nat eqn:E2.
    - destruct (nc =? 1)%nat eqn:E3; [discriminate|]. destruct (i <? nc)%nat eqn:E4; [|discriminate].
      apply Nat.ltb_lt in E4. apply Nat.eqb_eq in E2. intros H. injection H as <-. cbn [fst snd]. lia.
    - destruct (nc =? 1)%nat; [discriminate|]. destruct (i / nc <? nrows)%nat eqn:E4; [|discriminate].
      apply Nat.ltb_lt in E4. intros H.
      assert (Ha : a = (i / nc, i mod nc)%nat) by congruence. rewrite Ha. cbn [fst snd].
      pose proof (Nat.div_mod i nc E1). pose proof (Nat.mod_upper_bound i nc E1). lia. }
  split.
  { destruct df as [|r0 df0] eqn:Hdf; [cbn [length]; lia|]. rewrite <- Hdf in *.
    assert (Hl : (0 < length df)%nat) by (rewrite Hdf; cbn [length]; lia).
    destruct (nth_error df (length df - 1)) as [rows|] eqn:El; [|apply nth_error_None in El; lia].
    destruct (nth_error cols (length df - 1)) as [c|] eqn:El2; [|apply nth_error_None in El2; lia].
    specialize (Hall _ _ _ El El2). cbn in Hall. unfold kde_column in Hall.
    destruct (axis nrows nc (length df - 1)) as [a|] eqn:Ea; [|discriminate].
    destruct (Hax _ _ Ea) as (A1 & A2 & A3). nia. }
  intros i rows c Hr Hc. specialize (Hall i rows c Hr Hc). cbn in Hall. unfold kde_column in Hall.
  destruct (axis nrows nc i) as [a|] eqn:Ea; [|discriminate]. cbn [rbind] in Hall.
  destruct (support (map snd rows)) as [sup|] eqn:Es; [|discriminate]. cbn [rbind] in Hall.
  match type of Hall with context [mapM ?g rows] => destruct (mapM g rows) as [ls|] eqn:El end; [|discriminate].
  cbn [rbind] in Hall. injection Hall as <-. cbn [k_axes k_support k_lines].
  destruct (Hax i a Ea) as (A1 & A2 & A3). split; auto. split; auto. split; auto. split.
  - intros Hne.
    assert (Hcells : forall s, In s (map snd rows) -> s <> []) by (apply support_ok; eauto).
    unfold support in Es. destruct (existsb _ (map snd rows)); [discriminate|].
    set (lo := rmin (map rmin (map snd rows))) in *. set (hi := rmax (map rmax (map snd rows))) in *.
    assert (Hne' : map snd rows <> []) by (intros Hz; apply map_eq_nil in Hz; auto).
    destruct (rmin_spec (map rmin (map snd rows))) as [L1 L2].
    { intros Hz. apply map_eq_nil in Hz. auto. }
    destruct (rmax_spec (map rmax (map snd rows))) as [U1 U2].
    { intros Hz. apply map_eq_nil in Hz. auto. }
    fold lo in L1, L2. fold hi in U1, U2. exists lo, hi.
    assert (Hcell : forall s, In s (map snd rows) -> exists name, In (name, s) rows).
    { intros s Hs. apply in_map_iff in Hs as ((name & s') & <- & Hs). eauto. }
    split; [|split; [|split]].
    + apply in_map_iff in L1 as (s & Hs & Hi). destruct (Hcell s Hi) as (name & Hn). exists name, s.
      split; auto. rewrite <- Hs. apply rmin_spec. auto.
    + apply in_map_iff in U1 as (s & Hs & Hi). destruct (Hcell s Hi) as (name & Hn). exists name, s.
      split; auto. rewrite <- Hs. apply rmax_spec. auto.
    + intros name s x Hi Hx. assert (Hi' : In s (map snd rows)) by (apply in_map_iff; exists (name, s); auto).
      assert (H1 : lo <= rmin s) by (apply L2, in_map; auto).
      assert (H2 : rmax s <= hi) by (apply U2, in_map; auto).
      destruct (rmin_spec s) as [_ H3]; [auto|]. destruct (rmax_spec s) as [_ H4]; [auto|].
      specialize (H3 x Hx). specialize (H4 x Hx). lra.
    + assert (sup = linspace (lo - 0.1 * (hi - lo)) (hi + 0.1 * (hi - lo)) 200) by congruence. subst sup.
      unfold linspace. apply map_ext. intros k. replace (INR (200 - 1)) with 199; [lra|].
      change (200 - 1)%nat with 199%nat. rewrite INR_IZR_INZ. reflexivity.
  - apply mapM_Ok in El. clear -El. induction El as [|(name & samps) l rows ls H _ IH]; constructor; auto.
    cbn [fst snd] in *. destruct (kde samps sup) as [pdf|]; [|discriminate]. cbn [rbind] in H. injection H as <-.
    cbn [fst snd]. split; auto. exists pdf. split; auto. split; [intros ->; auto|].
    intros -> Hne Hpos. destruct (rmax_spec pdf Hne) as [M1 M2]. pose proof (Hpos _ M1) as M0.
    exists (map (fun v => v / rmax pdf) pdf), (rmax pdf). split; [|split; [|split; [|split; [|split]]]].
    + rewrite map_map. apply map_ext. intros v. unfold fdiv. destruct (Req_EM_T (rmax pdf) 0); [lra|auto].
    + apply map_length.
    + apply in_map_iff. exists (rmax pdf). split; auto. field. lra.
    + auto.
    + intros y Hy. apply in_map_iff in Hy as (v & <- & Hv). specialize (Hpos v Hv). specialize (M2 v Hv).
      split; [apply Rdiv_lt_0_compat; auto|]. apply Rmult_le_reg_r with (rmax pdf); auto.
      unfold Rdiv. rewrite Rmult_assoc, Rinv_l by lra. lra.
    + intros k Hk. rewrite map_length in Hk. rewrite (map_nth_in _ _ _ 0 0) by auto. field. lra.
Qed.
Print Assumptions C78_plots.

(** The legend has the names of the rows of the last column; without columns it
    raises NameError (with ncols given; otherwise plt.subplots raises ValueError). *)
Theorem C78_legend : forall py3 kde df nrows ncols normalize cols lg,
    kde_plot_df py3 kde df nrows ncols normalize true = Ok (cols, lg) ->
    exists rows, nth_error df (length df - 1) = Some rows /\ lg = Some (map fst rows).
Proof.
  intros py3 kde df nrows ncols normalize cols lg H.
  destruct (C78_plots _ _ _ _ _ _ _ _ _ H) as (Hl & nc & _ & _ & Hall). unfold kde_plot_df in H.
  destruct (nrows =? 0)%nat; [discriminate|]. destruct (_ =? 0)%nat; [discriminate|].
  match type of H with context [mapM ?f ?l] => destruct (mapM f l) as [cs|] end; [|discriminate]. cbn [rbind] in H.
  destruct cs as [|c0 cs]; [discriminate|].
  assert (cols = c0 :: cs) by congruence. subst cols.
  assert (Hlg : lg = Some (map fst (k_lines (last (c0 :: cs) (mkAxes (0, 0)%nat [] []))))) by congruence.
  assert (Hc : nth_error (c0 :: cs) (length df - 1) = Some (last (c0 :: cs) (mkAxes (0, 0)%nat [] []))).
  { rewrite last_nth, <- Hl. apply nth_error_nth'. cbn [length]. lia. }
  destruct (nth_error df (length df - 1)) as [rows|] eqn:Er.
  2:{ apply nth_error_None in Er. cbn [length] in Hl. lia. }
  exists rows. split; auto. rewrite Hlg. f_equal.
  destruct (Hall _ _ _ Er Hc) as (_ & _ & _ & _ & Hf). revert Hf.
  generalize (k_lines (last (c0 :: cs) (mkAxes (0, 0)%nat [] []))). clear. intros l Hf.
  induction Hf as [|r x l l' [H _] _ IH]; auto. cbn [map]. congruence.
Qed.
Print Assumptions C78_legend.
Theorem C78_no_columns : forall py3 kde nrows ncols normalize,
    (1 <= nrows)%nat -> (1 <= ncols)%nat ->
    kde_plot_df py3 kde [] nrows (Some ncols) normalize true = Raise NameError /\
    kde_plot_df py3 kde [] nrows (Some ncols) normalize false = Ok ([], None) /\
    forall legend, kde_plot_df py3 kde [] nrows None normalize legend = Raise ValueError.
Proof.
  intros py3 kde nrows ncols normalize H1 H2. unfold kde_plot_df.
  destruct (nrows =? 0)%nat eqn:E; [apply Nat.eqb_eq in E; lia|].
  destruct (ncols =? 0)%nat eqn:E2; [apply Nat.eqb_eq in E2; lia|]. split; [|split]; auto.
  intros legend. cbn [length]. replace ((0 + nrows - 1) / nrows)%nat with 0%nat.
  2:{ symmetry. apply Nat.div_small. lia. }
  replace (0 / nrows)%nat with 0%nat by (symmetry; apply Nat.div_0_l; lia). destruct py3; reflexivity.
Qed.
Print Assumptions C78_no_columns.

Example C78_example :
  plottable (fun s sup => Ok (map (fun _ => INR (length s)) sup)) [[(1%Z, [1; 2])]; [(1%Z, [3])]; [(1%Z, [4])]] /\
  exists c, kde_plot_df true (fun s sup => Ok (map (fun _ => INR (length s)) sup))
              [[(1%Z, [1; 2])]; [(1%Z, [3])]; [(1%Z, [4])]] 2 None true true = Ok (c, Some [1%Z]) /\
            map k_axes c = [(0, 0); (0, 1); (1, 0)]%nat.
Proof.
  split.
  - split; [discriminate|]. split; [|eauto].
    intros rows name samps [<-|[<-|[<-|[]]]] [H|[]]; injection H as <- <-; discriminate.
  - unfold kde_plot_df. cbn [Nat.eqb length Nat.add Nat.sub Nat.div Nat.divmod fst seq combine mapM].
    unfold kde_column, axis, support. cbn [Nat.eqb Nat.div Nat.divmod Nat.modulo Nat.ltb Nat.leb fst snd map existsb length orb rbind mapM Nat.sub].
    eexists. split; reflexivity.
Qed.
