(** C77: plot_run_nlive. *)
From Coq Require Import Lra Reals.
From Verif Require Import Base ModelRun ModelReal ModelStats ModelPlots ModelCurves ProofBase ProofReal ProofStats SpecReal PropKde.
Local Open Scope R_scope.

(** ** Effects on the runs *)

(** Run [r] afterwards: the same, or the first element of its key 'logx' is 0. *)
Definition zero_first (r : nrun) : nrun :=
  match n_logx r with
  | Some (_ :: t) => mkNRun (n_nlive r) (n_logl r) (Some (Some 0 :: t))
  | _ => r
  end.

Lemma run_line_effect : forall given r,
    (snd (run_line given r) = r \/ snd (run_line given r) = zero_first r) /\
    (forall x, fst (run_line given r) = Ok x -> snd (run_line given r) = zero_first r /\
       exists h t, run_logx given r = Ok (h :: t) /\ l_logx x = Some 0 :: t /\
         l_nlive x = n_nlive r /\ length (h :: t) = length (n_nlive r) /\ l_last x = last (h :: t) None /\
         l_area x = lift1 Ropp (ftrapz (map IZR (n_nlive r)) (Some 0 :: t))).
Proof.
  intros given r. unfold run_line. destruct (run_logx given r) as [[|h t]|e] eqn:Hr; cbn [fst snd].
  - split; [auto|discriminate].
  - assert (Hz : match n_logx r with
                 | Some _ => mkNRun (n_nlive r) (n_logl r) (Some (Some 0 :: t))
                 | None => r end = zero_first r).
    { unfold zero_first. unfold run_logx in Hr. destruct (n_logx r) as [l|]; auto.
      injection Hr as ->. auto. }
    destruct (_ =? _)%nat eqn:Hl; cbn [fst snd]; rewrite Hz.
    + split; auto. intros x Hx. split; auto. exists h, t. apply Nat.eqb_eq in Hl. injection Hx as <-.
      repeat split; auto.
    + split; [auto|discriminate].
  - split; [auto|discriminate].
Qed.

Definition touched (r r' : nrun) : Prop := r' = r \/ r' = zero_first r.
Lemma zero_first_idem : forall r, zero_first (zero_first r) = zero_first r.
Proof. intros [n l [[|h t]|]]; reflexivity. Qed.
Lemma touched_trans : forall a b c, touched a b -> touched b c -> touched a c.
Proof.
  intros a b c [->| ->] [->| ->]; unfold touched; auto. rewrite zero_first_idem. auto.
Qed.

(** What a line shows of a run; the change to the run does not matter. *)
Definition shows (given : option (list Z -> list fl)) (r : nrun) (x : line) : Prop :=
  exists h t, run_logx given r = Ok (h :: t) /\ l_logx x = Some 0 :: t /\ l_nlive x = n_nlive r /\
    length (h :: t) = length (n_nlive r) /\
    (n_logx r = None \/ t <> [] -> l_last x = last (h :: t) None) /\
    l_area x = lift1 Ropp (ftrapz (map IZR (n_nlive r)) (Some 0 :: t)).
Lemma shows_touched : forall given r r' x, touched r r' -> shows given r' x -> shows given r x.
Proof.
  intros given r r' x [->| ->] H; auto. destruct H as (h & t & H1 & H2 & Hn & H3 & Hla & H4).
  unfold zero_first in *. unfold shows, run_logx in *.
  destruct (n_logx r) as [[|a l]|] eqn:E; cbn [n_logx n_nlive n_logl] in *; rewrite ?E in *.
  - discriminate H1.
  - injection H1 as <- <-. exists a, l. repeat split; auto.
    intros [Hd|Hd]; [discriminate|]. rewrite Hla by auto. destruct l; [congruence|reflexivity].
  - exists h, t. repeat split; auto.
Qed.

Lemma runs_lines_effect : forall given l,
    Forall2 touched l (snd (runs_lines given l)) /\
    (forall xs, fst (runs_lines given l) = Ok xs ->
       snd (runs_lines given l) = map zero_first l /\ Forall2 (shows given) l xs).
Proof.
  intros given. assert (Hrefl : forall l, Forall2 touched l l).
  { induction l; constructor; auto. left; auto. }
  induction l as [|r t [IH1 IH2]]; cbn [runs_lines].
  - split; [constructor|]. intros xs H. injection H as <-. split; auto.
  - destruct (run_line_effect given r) as [H1 H2].
    destruct (run_line given r) as [[x|e] r']; cbn [fst snd] in *.
    + destruct (runs_lines given t) as [xs t']; cbn [fst snd] in *. split.
      * constructor; auto.
      * intros ys Hy. destruct xs as [xs|]; [|discriminate]. injection Hy as <-.
        destruct (IH2 xs eq_refl) as [-> H4]. destruct (H2 x eq_refl) as [-> (h & t0 & H5 & H6 & Hn & H7 & Hla & H8)].
        split; auto. constructor; auto. exists h, t0. repeat split; auto.
    + split; [|discriminate]. constructor; auto.
Qed.

(** ** The dictionary *)
Lemma dict_get_set : forall A k (v : A) d m,
    dict_get m (dict_set k v d) = if (m =? k)%Z then Ok v else dict_get m d.
Proof.
  intros A k v d m. induction d as [|(k' & v') d IH]; cbn [dict_set dict_get].
  - destruct (m =? k)%Z; auto.
  - destruct (k =? k')%Z eqn:E; cbn [dict_get].
    + apply Z.eqb_eq in E. subst k'. destruct (m =? k)%Z; auto.
    + rewrite IH. destruct (m =? k')%Z eqn:E2; auto. apply Z.eqb_eq in E2. subst k'.
      destruct (m =? k)%Z eqn:E3; auto. apply Z.eqb_eq in E3. subst k. rewrite Z.eqb_refl in E. discriminate.
Qed.
Lemma dict_set_keys : forall A k (v w : A) d, dict_get k d = Ok w -> map fst (dict_set k v d) = map fst d.
Proof.
  intros A k v w d. induction d as [|(k' & v') d IH]; cbn [dict_set dict_get map fst]; [discriminate|].
  destruct (k =? k')%Z eqn:E; intros H; cbn [map fst].
  - apply Z.eqb_eq in E. congruence.
  - f_equal. auto.
Qed.
Lemma dict_get_in : forall A k (d : list (Z * A)), (exists v, dict_get k d = Ok v) <-> In k (map fst d).
Proof.
  intros A k. induction d as [|(k' & v') d IH]; cbn [dict_get map fst In].
  - split; [intros [v H]; discriminate|tauto].
  - destruct (k =? k')%Z eqn:E.
    + apply Z.eqb_eq in E. subst. split; eauto.
    + rewrite IH. apply Z.eqb_neq in E. split; auto. intros [H|H]; [congruence|auto].
Qed.

Lemma methods_lines_effect : forall given names d,
    let d' := snd (methods_lines given names d) in
    map fst d' = map fst d /\
    (forall m runs, dict_get m d = Ok runs -> exists runs', dict_get m d' = Ok runs' /\
       Forall2 touched runs runs') /\
    (forall ls, fst (methods_lines given names d) = Ok ls ->
       map fst ls = names /\
       (forall m x, In (m, x) ls -> exists runs, dict_get m d = Ok runs /\ Forall2 (shows given) runs x) /\
       (forall m runs, dict_get m d = Ok runs ->
          dict_get m d' = Ok (if existsb (Z.eqb m) names then map zero_first runs else runs))).
Proof.
  intros given. assert (Hrefl : forall l, Forall2 touched l l).
  { induction l; constructor; auto. left; auto. }
  assert (Hsh : forall l l' x, Forall2 touched l l' -> Forall2 (shows given) l' x -> Forall2 (shows given) l x).
  { intros l l' x H. revert x. induction H; intros z Hz; inversion Hz; subst; constructor; auto.
    eapply shows_touched; eauto. }
  induction names as [|m t IH]; intros d; cbn [methods_lines]; cbv zeta.
  - cbn [fst snd]. split; auto. split; [intros; eauto|]. intros ls H. injection H as <-.
    split; auto. split; [intros ? ? []|auto].
  - destruct (dict_get m d) as [runs|e] eqn:Hg; cbn [fst snd].
    2:{ split; auto. split; [intros; eauto|discriminate]. }
    destruct (runs_lines_effect given runs) as [H1 H2].
    destruct (runs_lines given runs) as [x runs']; cbn [fst snd] in *.
    assert (Hk : map fst (dict_set m runs' d) = map fst d) by (eapply dict_set_keys; eauto).
    assert (Ht : forall k l, dict_get k d = Ok l -> exists l', dict_get k (dict_set m runs' d) = Ok l' /\
                   Forall2 touched l l').
    { intros k l Hl. rewrite dict_get_set. destruct (k =? m)%Z eqn:E; [|eauto].
      apply Z.eqb_eq in E. subst k. assert (l = runs) by congruence. subst l. eauto. }
    destruct x as [x|e]; cbn [fst snd].
    2:{ split; auto. split; [auto|discriminate]. }
    destruct (IH (dict_set m runs' d)) as (I1 & I2 & I3).
    destruct (methods_lines given t (dict_set m runs' d)) as [xs d'']; cbn [fst snd] in *.
    split; [congruence|]. split.
    + intros k l Hl. destruct (Ht k l Hl) as (l' & Hl' & Htl). destruct (I2 k l' Hl') as (l'' & Hl'' & Htl').
      exists l''. split; auto. clear -Htl Htl'. revert l'' Htl'.
      induction Htl; intros l'' H'; inversion H'; subst; constructor; eauto using touched_trans.
    + intros ls Hls. destruct xs as [xs|]; [|discriminate]. injection Hls as <-.
      destruct (H2 x eq_refl) as [E1 E2]. destruct (I3 xs eq_refl) as (J1 & J2 & J3). cbn [map fst].
      split; [congruence|]. split.
      * intros k y [Hy|Hy].
        -- injection Hy as <- <-. exists runs. auto.
        -- destruct (J2 k y Hy) as (l' & Hl' & Hs). rewrite dict_get_set in Hl'.
           destruct (k =? m)%Z eqn:E; [|eauto]. apply Z.eqb_eq in E. subst k. exists runs. split; auto.
           injection Hl' as <-. eapply Hsh; eauto.
      * intros k l Hl. specialize (J3 k). rewrite dict_get_set in J3. cbn [existsb].
        destruct (k =? m)%Z eqn:E.
        -- apply Z.eqb_eq in E. subst k. assert (l = runs) by congruence. subst l.
           rewrite (J3 runs' eq_refl), E1. cbn [orb]. destruct (existsb (Z.eqb m) t); auto.
           rewrite map_map. f_equal. apply map_ext. intros. apply zero_first_idem.
        -- cbn [orb]. apply J3; auto.
Qed.

Lemma logx_value : forall nlive lx, get_logx nlive None = Ok lx ->
    forall i, (i < length nlive)%nat ->
    nth i (map Some lx) None = Some (- sumR (map (fun n => 1 / IZR n) (firstn (S i) nlive))).
Proof.
  intros nlive lx H i Hi. apply get_logx_ok in H as (_ & _ & ->). unfold logx_steps.
  rewrite (map_nth_in _ _ Some None 0) by (rewrite cumsum_length, map_length; auto). f_equal.
  rewrite nth_cumsum by (rewrite map_length; auto). rewrite firstn_map, rsum_sumR.
  generalize (firstn (S i) nlive). intros l. clear. induction l as [|n l IH]; cbn [map sumR]; [lra|].
  rewrite IH. unfold Rdiv. lra.
Qed.

(** ** C77 *)

Definition same_names (names : list Z) (d : list (Z * list nrun)) : Prop :=
  forall m, In m names <-> In m (map fst d).
Lemma names_checked : forall names d,
    (forallb (fun m => existsb (Z.eqb m) (map fst d)) names
     && forallb (fun k => existsb (Z.eqb k) names) (map fst d))%bool = true <-> same_names names d.
Proof.
  intros names d. rewrite andb_true_iff, !forallb_forall. unfold same_names.
  assert (Hx : forall k l, existsb (Z.eqb k) l = true <-> In k l).
  { intros k l. rewrite existsb_exists. split.
    - intros (y & Hy & He). apply Z.eqb_eq in He. congruence.
    - intros H. exists k. split; auto. apply Z.eqb_refl. }
  split.
  - intros [H1 H2] m. split; intros H; [apply Hx, H1|apply Hx, H2]; auto.
  - intros H. split; intros x Hi; apply Hx, H; auto.
Qed.

Lemma rmin_spec : forall l, l <> [] -> In (rmin l) l /\ forall v, In v l -> rmin l <= v.
Proof.
  intros [|a l] H; [congruence|]. clear H. cbn [rmin]. induction l as [|b l [IH1 IH2]]; cbn [fold_right].
  - split; [left; auto|]. intros v [->|[]]. lra.
  - split.
    + unfold Rmin at 1. destruct (Rle_dec b _); [right; left; auto|]. destruct IH1; [left|right; right]; auto.
    + intros v Hv. assert (Hm : Rmin b (fold_right Rmin a l) <= fold_right Rmin a l) by apply Rmin_r.
      destruct Hv as [->|[->|Hv]].
      * specialize (IH2 v (or_introl eq_refl)). lra.
      * apply Rmin_l.
      * specialize (IH2 v (or_intror Hv)). lra.
Qed.

Lemma plot_inv : forall names d given lg lm np norm cn p,
    fst (plot_run_nlive names d given lg lm np norm cn) = Ok p ->
    same_names names d /\ fst (methods_lines given names d) = Ok (np_lines p) /\
    match lm with
    | Some m => np_xmin p = m
    | None => exists l, map l_last (flat_map snd (np_lines p)) = map Some l /\ l <> [] /\ np_xmin p = rmin l
    end /\
    match lg with
    | None => np_curves p = None
    | Some g => exists c, analytic g (np_xmin p) np norm cn (integrals_dict (np_lines p)) = Ok c /\
                          np_curves p = Some c
    end.
Proof.
  intros names d given lg lm np norm cn p. unfold plot_run_nlive.
  destruct (_ && _)%bool eqn:Hc; cbn [negb fst]; [|discriminate]. apply names_checked in Hc.
  destruct (methods_lines given names d) as [[ls|e] d']; cbn [fst snd rbind] in *; [|discriminate].
  intros Hp. split; auto.
  destruct (match lm with Some m => Ok m | None => _ end) as [lo|] eqn:Hlo; [|discriminate]. cbn [rbind] in Hp.
  destruct (match lg with None => Ok None | Some g => _ end) as [cur|] eqn:Hcur; [|discriminate]. cbn [rbind] in Hp.
  injection Hp as <-. cbn [np_lines np_xmin np_curves]. split; auto. split.
  - destruct lm as [m|]; [congruence|].
    destruct (map l_last (flat_map snd ls)) as [|y l] eqn:Hl; [discriminate|].
    destruct (all_finite (y :: l)) as [q|] eqn:Hq; [|discriminate]. injection Hlo as <-.
    apply all_finite_inv in Hq. exists q. split; auto. split; auto. destruct q; discriminate.
  - destruct lg as [g|]; [|congruence]. destruct (analytic g lo np norm cn (integrals_dict ls)) as [c|]; [|discriminate].
    injection Hcur as <-. eauto.
Qed.

(** Whatever happens, the runs are the same afterwards, except that the first
    element of their key 'logx' may have been set to 0; with a result it has been
    in all runs which have the key.  So the call changes its argument. *)
Theorem C77_effects : forall names d given logl_given logx_min npoints norm cum_norm,
    let d' := snd (plot_run_nlive names d given logl_given logx_min npoints norm cum_norm) in
    map fst d' = map fst d /\
    (forall m runs, dict_get m d = Ok runs -> exists runs', dict_get m d' = Ok runs' /\
       Forall2 (fun r r' => r' = r \/
                  exists h t, n_logx r = Some (h :: t) /\
                              r' = mkNRun (n_nlive r) (n_logl r) (Some (Some 0 :: t))) runs runs' /\
       (forall p, fst (plot_run_nlive names d given logl_given logx_min npoints norm cum_norm) = Ok p ->
          forall r', In r' runs' -> forall l, n_logx r' = Some l -> hd None l = Some 0)).
Proof.
  intros names d given lg lm np norm cn d'. unfold d', plot_run_nlive. clear d'.
  assert (Htc : forall r r', touched r r' -> r' = r \/
            exists h t, n_logx r = Some (h :: t) /\
                        r' = mkNRun (n_nlive r) (n_logl r) (Some (Some 0 :: t))).
  { intros r r' [->| ->]; auto. unfold zero_first. destruct (n_logx r) as [[|h t]|]; eauto. }
  destruct (_ && _)%bool eqn:Hc; cbn [negb].
  2:{ cbn [fst snd]. split; auto. intros m runs H. exists runs. split; auto. split; [|discriminate].
      clear H. induction runs; constructor; auto. }
  apply names_checked in Hc.
  destruct (methods_lines_effect given names d) as (H1 & H2 & H3).
  destruct (methods_lines given names d) as [x d']; cbn [fst snd] in *. split; auto.
  intros m runs Hm. destruct (H2 m runs Hm) as (runs' & Hm' & Ht). exists runs'. split; auto. split.
  { clear -Ht Htc. induction Ht; constructor; auto. }
  intros p Hp. destruct x as [ls|]; [|discriminate]. destruct (H3 ls eq_refl) as (J1 & J2 & J3).
  assert (Hin : In m names) by (apply Hc, dict_get_in; eauto).
  pose proof (J3 m runs Hm) as Hz. replace (existsb (Z.eqb m) names) with true in Hz
    by (symmetry; apply existsb_exists; exists m; split; auto; apply Z.eqb_refl).
  assert (runs' = map zero_first runs) by congruence. subst runs'.
  rewrite <- J1 in Hin. apply in_map_iff in Hin as ((m' & xs) & <- & Hin). cbn [fst] in *.
  destruct (J2 m' xs Hin) as (runs2 & Hr2 & Hs). assert (runs2 = runs) by congruence. subst runs2.
  intros r' Hr' l Hl. apply in_map_iff in Hr' as (r & <- & Hr).
  assert (Hsh : exists y, shows given r y).
  { clear -Hs Hr. induction Hs; [destruct Hr|]. destruct Hr as [->|Hr]; eauto. }
  destruct Hsh as (y & h & t & Hlx & _). unfold zero_first in Hl. unfold run_logx in Hlx.
  destruct (n_logx r) as [[|a q]|] eqn:E; cbn [n_logx] in Hl.
  - discriminate.
  - injection Hl as <-. reflexivity.
  - congruence.
Qed.
Print Assumptions C77_effects.

(** The lines: each method has one for each of its runs, with the numbers of live
    points over logx, the first of which is replaced by 0. *)
Theorem C77_lines : forall names d given logl_given logx_min npoints norm cum_norm p,
    fst (plot_run_nlive names d given logl_given logx_min npoints norm cum_norm) = Ok p ->
    (forall m, In m names <-> In m (map fst d)) /\ map fst (np_lines p) = names /\
    forall m xs, In (m, xs) (np_lines p) -> exists runs, dict_get m d = Ok runs /\
      Forall2 (fun r x =>
        l_nlive x = n_nlive r /\ length (l_logx x) = length (n_nlive r) /\ hd None (l_logx x) = Some 0 /\
        ((2 <= length (n_nlive r))%nat -> l_last x = last (l_logx x) None) /\
        match n_logx r, given with
        | Some l, _ => tl (l_logx x) = tl l
        | None, Some f => tl (l_logx x) = tl (f (n_logl r))
        | None, None => forall i, (0 < i < length (n_nlive r))%nat ->
            nth i (l_logx x) None =
            Some (- sumR (map (fun n => 1 / IZR n) (firstn (S i) (n_nlive r))))
        end) runs xs.
Proof.
  intros names d given lg lm np norm cn p Hp. apply plot_inv in Hp as (Hc & Hm & _).
  destruct (methods_lines_effect given names d) as (H1 & H2 & H3).
  destruct (H3 _ Hm) as (J1 & J2 & J3).
  split; auto. split; auto. intros m xs Hin. destruct (J2 m xs Hin) as (runs & Hr & Hs).
  exists runs. split; auto. clear -Hs.
  induction Hs as [|r x l l' (h & t & H1 & H2 & Hn & H3 & Hla & _) _ IH]; constructor; auto.
  split; auto. rewrite H2. cbn [hd tl]. split; [cbn [length] in *; auto|]. split; auto. split.
  { intros Hi. rewrite Hla; destruct t; cbn [length] in *; auto; try lia. right. discriminate. }
  unfold run_logx in H1. destruct (n_logx r) as [q|]; [injection H1 as ->; auto|].
  destruct given as [f|]; [injection H1 as ->; auto|].
  intros i Hi. destruct (get_logx (n_nlive r) None) as [lx|] eqn:Hg; [|discriminate]. cbn [rbind] in H1.
  injection H1 as H1. destruct i as [|i]; [lia|]. cbn [nth].
  assert (Hlx : nth i t None = nth (S i) (map Some lx) None) by (rewrite H1; reflexivity).
  rewrite Hlx. rewrite (logx_value _ _ Hg) by lia. reflexivity.
Qed.
Print Assumptions C77_lines.

(** The lower limit of the axis: the given one, or the lowest of the last values
    of logx. *)
Theorem C77_limit : forall names d given logl_given logx_min npoints norm cum_norm p,
    fst (plot_run_nlive names d given logl_given logx_min npoints norm cum_norm) = Ok p ->
    match logx_min with
    | Some m => np_xmin p = m
    | None => (exists m xs x, In (m, xs) (np_lines p) /\ In x xs /\ l_last x = Some (np_xmin p)) /\
              (forall m xs x, In (m, xs) (np_lines p) -> In x xs ->
                 exists v, l_last x = Some v /\ np_xmin p <= v)
    end.
Proof.
  intros names d given lg lm np norm cn p Hp. apply plot_inv in Hp as (_ & _ & Hx & _).
  destruct lm as [m|]; auto. destruct Hx as (l & Hl & Hne & Hx). rewrite Hx.
  destruct (rmin_spec l Hne) as [H1 H2].
  assert (Hin : forall v, In (Some v) (map l_last (flat_map snd (np_lines p))) <-> In v l).
  { intros v. rewrite Hl. rewrite in_map_iff. split; [intros (u & Hu & Hi); congruence|eauto]. }
  split.
  - apply Hin in H1. apply in_map_iff in H1 as (x & Hv & Hi). apply in_flat_map in Hi as ((m & xs) & Hi & Hi2).
    exists m, xs, x. auto.
  - intros m xs x Hm Hi.
    assert (Hq : In (l_last x) (map Some l)).
    { rewrite <- Hl. apply in_map, in_flat_map. exists (m, xs). auto. }
    apply in_map_iff in Hq as (v & Hv & Hi2). exists v. auto.
Qed.
Print Assumptions C77_limit.

(** The area under a line is that of the trapezium rule, nan if a coordinate is. *)
Theorem C77_areas : forall names d given logl_given logx_min npoints norm cum_norm p m xs x,
    fst (plot_run_nlive names d given logl_given logx_min npoints norm cum_norm) = Ok p ->
    In (m, xs) (np_lines p) -> In x xs ->
    (forall lx, l_logx x = map Some lx -> l_area x = Some (- integral lx (map IZR (l_nlive x)))) /\
    (In None (l_logx x) -> l_area x = None).
Proof.
  intros names d given lg lm np norm cn p m xs x Hp Hi Hx. apply plot_inv in Hp as (Hc & Hm & _).
  destruct (methods_lines_effect given names d) as (_ & _ & H3). destruct (H3 _ Hm) as (_ & J2 & _).
  destruct (J2 m xs Hi) as (runs & _ & Hs).
  assert (Hsh : exists r, shows given r x).
  { clear -Hs Hx. induction Hs; [destruct Hx|]. destruct Hx as [->|Hx]; eauto. }
  destruct Hsh as (r & h & t & _ & H2 & H4 & H5 & _ & H6). rewrite H6, H2, H4. unfold ftrapz. split.
  - intros lx Hlx. rewrite Hlx, all_finite_some. cbn [option_map lift1]. do 2 f_equal.
    apply trapz_integral. rewrite map_length, <- H5. apply (f_equal (@length fl)) in Hlx.
    rewrite map_length in Hlx. cbn [length] in *. auto.
  - intros Hn. rewrite all_finite_in; auto.
Qed.
Print Assumptions C77_areas.

(** In a run with a constant number of live points (without the key 'logx' and
    without logx_given_logl) the area is the number of samples: the normalisation
    of the curves is the average number of samples. *)
Lemma trapz_const : forall n k a t, length t = k ->
    trapz (repeat n (S k)) (a :: t) = n * (last t a - a).
Proof.
  intros n k. induction k as [|k IH]; intros a t Ht; destruct t as [|b t]; cbn [length] in Ht; try discriminate.
  - cbn. lra.
  - change (repeat n (S (S k))) with (n :: repeat n (S k)). change (repeat n (S k)) with (n :: repeat n k) at 1.
    rewrite trapz_cons. change (n :: repeat n k) with (repeat n (S k)). rewrite IH by lia.
    change (last (b :: t) a) with (match t with [] => b | _ => last t a end).
    assert (H : last t b = match t with [] => b | _ => last t a end).
    { destruct t; auto. clear. revert r. induction t; intros; auto. cbn. apply IHt. }
    rewrite H. lra.
Qed.
Lemma sum_repeat : forall (c : R) k, sumR (repeat c k) = INR k * c.
Proof.
  intros c. induction k; [cbn; lra|]. rewrite S_INR. change (repeat c (S k)) with (c :: repeat c k).
  cbn [sumR]. unfold sumR in *. cbn [fold_right]. rewrite IHk. lra.
Qed.
Theorem C77_static_area : forall names d logl_given logx_min npoints norm cum_norm p m xs runs i r x n N,
    fst (plot_run_nlive names d None logl_given logx_min npoints norm cum_norm) = Ok p ->
    In (m, xs) (np_lines p) -> dict_get m d = Ok runs ->
    nth_error runs i = Some r -> nth_error xs i = Some x ->
    n_logx r = None -> n_nlive r = repeat n N -> (2 <= N)%nat ->
    l_area x = Some (INR N).
Proof.
  intros names d lg lm np norm cn p m xs runs i r x n N Hp Hm Hg Hi Hx Hnl Hn HN.
  apply plot_inv in Hp as (Hc & Hml & _).
  destruct (methods_lines_effect None names d) as (_ & _ & H3). destruct (H3 _ Hml) as (_ & J2 & _).
  destruct (J2 m xs Hm) as (runs' & Hg' & Hs). assert (runs' = runs) by congruence. subst runs'.
  assert (Hsh : shows None r x).
  { clear -Hs Hi Hx. revert i Hi Hx. induction Hs; intros [|i]; cbn [nth_error]; intros; try discriminate.
    - congruence. - eauto. }
  destruct Hsh as (h & t & H1 & H2 & H4 & H5 & Hla & H6). rewrite H6. unfold run_logx in H1. rewrite Hnl in H1.
  destruct (get_logx (n_nlive r) None) as [lx|] eqn:Hlx; [|discriminate]. cbn [rbind] in H1. injection H1 as H1.
  pose proof (logx_value _ _ Hlx) as Hv. apply get_logx_ok in Hlx as (_ & Hpos & _).
  rewrite H1 in Hv. rewrite Hn in Hv, H5, Hpos. rewrite repeat_length in *.
  assert (Hn0 : (0 < n)%Z) by (apply Hpos; destruct N; [lia|left; auto]).
  assert (Hl : last (Some 0 :: t) None = Some (- INR N / IZR n)).
  { destruct t as [|b t]; [cbn [length] in *; lia|]. change (last (Some 0 :: b :: t) None) with (last (h :: b :: t) None).
    rewrite last_nth, H5, Hv by lia. replace (S (N - 1)) with N by lia.
    assert (Hf : forall k, map (fun n => 1 / IZR n) (firstn k (repeat n k)) = repeat (1 / IZR n) k).
    { induction k; auto. cbn [repeat firstn map]. rewrite IHk. auto. }
    rewrite Hf, sum_repeat. f_equal. unfold Rdiv. lra. }
  assert (Hall : exists q, t = map Some q /\ length q = (N - 1)%nat).
  { assert (Hq : exists lx', map Some lx = map Some lx') by eauto. destruct lx as [|a q]; [discriminate|].
    injection H1 as _ <-. exists q. split; auto. cbn [length] in H5. rewrite map_length in H5. lia. }
  destruct Hall as (q & -> & Hq). unfold ftrapz. change (Some 0 :: map Some q) with (map Some (0 :: q)).
  rewrite all_finite_some, Hn. cbn [option_map lift1]. f_equal.
  replace (map IZR (repeat n N)) with (repeat (IZR n) (S (N - 1))).
  2:{ replace (S (N - 1)) with N by lia. clear. induction N; cbn; auto. f_equal; auto. }
  rewrite trapz_const by auto.
  assert (Hlq : last q 0 = - INR N / IZR n).
  { clear -Hl Hq HN. destruct q as [|b q]; [cbn [length] in *; lia|].
    change (last (Some 0 :: map Some (b :: q)) None) with (last (map Some (b :: q)) None) in Hl.
    clear Hq. revert b Hl. clear. induction q as [|c q IH]; intros b H; [cbn in *; congruence|].
    change (last (b :: c :: q) 0) with (last (c :: q) 0). apply IH. exact H. }
  rewrite Hlq. assert (0 < IZR n) by (apply IZR_lt; auto). field. lra.
Qed.
Print Assumptions C77_static_area.

(** ** The curves *)

(** The areas (those which are numbers) used for a normalisation: those of the
    runs of the method, or all if it is not one of the methods (or None). *)
Definition areas (names : list Z) (ls : list (Z * list line)) (key : option Z) : list R :=
  finite_part (map l_area
    (flat_map (fun '(m, xs) =>
                 match key with
                 | Some k => if in_dec Z.eq_dec k names then if Z.eq_dec m k then xs else [] else xs
                 | None => xs
                 end) ls)).

Lemma dict_set_new : forall A k (v : A) d, ~ In k (map fst d) -> dict_set k v d = d ++ [(k, v)].
Proof.
  intros A k v d. induction d as [|(k' & v') d IH]; cbn [map fst In dict_set app]; auto. intros H.
  destruct (k =? k')%Z eqn:E; [apply Z.eqb_eq in E; subst; tauto|]. f_equal. apply IH. tauto.
Qed.
Lemma integrals_dict_nodup : forall ls, NoDup (map fst ls) ->
    integrals_dict ls = map (fun '(m, l) => (m, finite_part (map l_area l))) ls.
Proof.
  intros ls H. unfold integrals_dict.
  assert (Hg : forall ls d, NoDup (map fst d ++ map fst ls) ->
            fold_left (fun d '(m, l) => dict_set m (finite_part (map l_area l)) d) ls d =
            d ++ map (fun '(m, l) => (m, finite_part (map l_area l))) ls).
  { clear. induction ls as [|(m & l) ls IH]; intros d H; cbn [fold_left map]; [rewrite app_nil_r; auto|].
    cbn [map fst] in H. rewrite dict_set_new.
    - rewrite IH, <- app_assoc; auto. rewrite map_app. cbn [map fst]. rewrite <- app_assoc. auto.
    - apply NoDup_remove_2 in H. intros Hi. apply H. apply in_app_iff. auto. }
  apply (Hg ls []). auto.
Qed.
Lemma average_areas : forall names ls key a, map fst ls = names -> NoDup names ->
    average_by_key (integrals_dict ls) key = Ok a -> a = mean_of (areas names ls key).
Proof.
  intros names ls key a Hn Hd. subst names. rewrite integrals_dict_nodup by auto.
  set (h := fun '(m, l) => (m, finite_part (map l_area l))).
  assert (Hall : concat (map snd (map h ls)) = finite_part (map l_area (flat_map snd ls))).
  { clear. induction ls as [|(m & l) ls IH]; auto. cbn [map concat snd h flat_map].
    rewrite map_app, finite_part_app, <- IH. reflexivity. }
  assert (Hav : forall r, match map h ls with [] => Raise ValueError | _ => Ok (mean_of (concat (map snd (map h ls)))) end
                = Ok r -> r = mean_of (finite_part (map l_area (flat_map snd ls)))).
  { intros r Hr. destruct (map h ls) eqn:E; [discriminate|]. rewrite <- E in *. congruence. }
  assert (Hfm : flat_map (fun '(m, xs) => xs) ls = flat_map snd ls).
  { apply flat_map_ext. intros []; auto. }
  unfold average_by_key, areas. destruct key as [k|].
  2:{ intros H. rewrite Hfm. apply Hav. auto. }
  assert (Hg : forall k, In k (map fst ls) -> exists xs, dict_get k (map h ls) = Ok (finite_part (map l_area xs)) /\
             flat_map (fun '(m, ys) => if Z.eq_dec m k then ys else []) ls = xs).
  { clear -Hd. intros k Hk. induction ls as [|(m & l) ls IH]; [destruct Hk|]. cbn [map fst] in *.
    inversion Hd as [|? ? Hnin Hnd]; subst. cbn [map h dict_get flat_map].
    destruct (k =? m)%Z eqn:E.
    - apply Z.eqb_eq in E. subst k. exists l. split; auto. destruct (Z.eq_dec m m); [|congruence].
      replace (flat_map _ ls) with (@nil line); [apply app_nil_r|].
      clear -Hnin. induction ls as [|(m' & l') ls IH]; auto. cbn [flat_map map fst In] in *.
      destruct (Z.eq_dec m' m); [subst; tauto|]. apply IH. tauto.
    - apply Z.eqb_neq in E. destruct Hk as [Hk|Hk]; [congruence|].
      destruct (IH Hnd Hk) as (xs & H1 & H2). exists xs. split; auto.
      destruct (Z.eq_dec m k); [congruence|auto]. }
  assert (Hno : forall k, ~ In k (map fst ls) -> exists e, dict_get k (map h ls) = Raise e).
  { clear. intros k. induction ls as [|(m & l) ls IH]; cbn [map fst h dict_get In]; eauto. intros H.
    destruct (k =? m)%Z eqn:E; [apply Z.eqb_eq in E; subst; tauto|]. apply IH. tauto. }
  destruct (in_dec Z.eq_dec k (map fst ls)) as [Hi|Hi].
  - destruct (Hg k Hi) as (xs & -> & ->). congruence.
  - destruct (Hno k Hi) as (e & ->). intros H. rewrite Hfm. apply Hav. auto.
Qed.

(** The points of the grid. *)
Lemma linspace_nth : forall a n i, (i < n)%nat ->
    nth i (linspace a 0 n) 0 = a + INR i * ((0 - a) / INR (n - 1)).
Proof.
  intros a n i Hi. unfold linspace. rewrite (map_nth_in _ _ _ 0 0%nat) by (rewrite seq_length; auto).
  rewrite seq_nth by auto. cbn [Nat.add]. reflexivity.
Qed.
Lemma linspace_sorted : forall a n, a < 0 -> StronglySorted Rlt (linspace a 0 n).
Proof.
  intros a n Ha. unfold linspace. assert (Hs : forall k m, StronglySorted lt (seq m k)).
  { induction k; intros m; cbn [seq]; constructor; auto. apply Forall_forall. intros x Hx.
    apply in_seq in Hx. lia. }
  destruct (Nat.eq_dec n 0) as [->|Hn0]; [constructor|].
  destruct (Nat.eq_dec n 1) as [->|Hn]; [cbn; repeat constructor|].
  assert (Hc : 0 < (0 - a) / INR (n - 1)).
  { apply Rdiv_lt_0_compat; [lra|]. apply lt_0_INR. lia. }
  revert Hc. generalize ((0 - a) / INR (n - 1)). intros c Hc. specialize (Hs n 0%nat).
  induction Hs as [|x l Hl IH Hf]; cbn [map]; constructor; auto.
  rewrite Forall_forall in *. intros y Hy. apply in_map_iff in Hy as (k & <- & Hk). apply Hf in Hk.
  apply lt_INR in Hk. nra.
Qed.
Lemma sorted_filter : forall f l, StronglySorted Rlt l -> StronglySorted Rlt (filter f l).
Proof.
  intros f l H. induction H as [|x l Hl IH Hf]; cbn [filter]; [constructor|].
  destruct (f x); auto. constructor; auto. rewrite Forall_forall in *. intros y Hy.
  apply filter_In in Hy as [Hy _]. auto.
Qed.
Lemma sorted_nth : forall l, StronglySorted Rlt l -> forall i j, (i < j < length l)%nat -> nth i l 0 < nth j l 0.
Proof.
  intros l H. induction H as [|x l Hl IH Hf]; intros i j Hij; cbn [length] in *; [lia|].
  rewrite Forall_forall in Hf. destruct j as [|j]; [lia|]. destruct i as [|i]; cbn [nth].
  - apply Hf, nth_In. lia.
  - apply IH. lia.
Qed.

Lemma fcumsum_some : forall l s, fcumsum_from (Some s) (map Some l) = map Some (cumsum_from s l).
Proof. induction l as [|x l IH]; intros s; cbn [map fcumsum_from cumsum_from]; auto. cbn [fadd lift2]. rewrite IH. auto. Qed.
Lemma trapz_mul : forall c x y, trapz (map (fun v => v * c) y) x = trapz y x * c.
Proof.
  intros c x y. destruct (Req_dec c 0) as [->|Hc].
  - revert x. induction y as [|y0 y IH]; intros x; [cbn; lra|].
    destruct x as [|x0 x]; [destruct y; cbn; lra|].
    destruct y as [|y1 y]; [cbn; lra|]. destruct x as [|x1 x]; [cbn; lra|].
    specialize (IH (x1 :: x)). cbn [map] in *. cbn [trapz] in *. rewrite IH. lra.
  - rewrite <- (map_ext (fun v => v / (/ c))) by (intros; field; auto). rewrite trapz_scale. field. auto.
Qed.

Lemma finite_part_map : forall (g : R -> fl) l, (forall x, In x l -> is_number (g x) = true) ->
    length (finite_part (map g l)) = length l /\
    forall i, (i < length l)%nat -> g (nth i l 0) = Some (nth i (finite_part (map g l)) 0).
Proof.
  intros g l. induction l as [|x l IH]; intros H; [split; auto; cbn [length]; lia|].
  destruct IH as [I1 I2]; [intros; apply H; right; auto|].
  pose proof (H x (or_introl eq_refl)) as Hx. cbn [map]. destruct (g x) as [v|] eqn:E; [|discriminate].
  change (finite_part (Some v :: map g l)) with (v :: finite_part (map g l)). cbn [length]. split; [lia|].
  intros [|i] Hi; cbn [nth]; auto. apply I2. lia.
Qed.

(** The analytic curves: they are evaluated at those points of the grid at which
    logl_given_logx is a number.  The relative posterior mass is proportional to
    L(X) X, and the area under it is the mean area under the lines of the method
    post_mass_norm (or of all lines); the second curve is proportional to the sums
    of the values of the first one, and the area under it is the mean area for
    cum_post_mass_norm. *)
Theorem C77_curves : forall names d given g logx_min npoints norm cum_norm p lx w c,
    fst (plot_run_nlive names d given (Some g) logx_min npoints norm cum_norm) = Ok p ->
    np_curves p = Some (lx, w, c) -> NoDup names ->
    np_xmin p < 0 -> (2 <= length lx)%nat ->
    areas names (np_lines p) norm <> [] -> areas names (np_lines p) cum_norm <> [] ->
    mean (areas names (np_lines p) norm) <> 0 ->
    (forall x, In x lx <-> (exists i, (i < npoints)%nat /\
                             x = np_xmin p + INR i * ((0 - np_xmin p) / INR (npoints - 1))) /\ g x <> None) /\
    (forall i j, (i < j < length lx)%nat -> nth i lx 0 < nth j lx 0) /\
    exists w' c', w = map Some w' /\ c = map Some c' /\ length w' = length lx /\ length c' = length lx /\
      (forall i j li lj, (i < length lx)%nat -> (j < length lx)%nat ->
         g (nth i lx 0) = Some li -> g (nth j lx 0) = Some lj ->
         nth i w' 0 * exp (nth j lx 0 + lj) = nth j w' 0 * exp (nth i lx 0 + li)) /\
      integral lx w' = mean (areas names (np_lines p) norm) /\
      (forall i j, (i < length lx)%nat -> (j < length lx)%nat ->
         nth i c' 0 * sumR (firstn (S j) w') = nth j c' 0 * sumR (firstn (S i) w')) /\
      integral lx c' = mean (areas names (np_lines p) cum_norm).
Proof.
  intros names d given g lm np norm cn p lx w c Hp Hcur Hnd Hx0 Hlen Ha1 Ha2 Hm0.
  pose proof Hp as Hp'. apply plot_inv in Hp as (Hc & Hml & _ & (cc & Han & Hcc)).
  destruct (methods_lines_effect given names d) as (_ & _ & H3). destruct (H3 _ Hml) as (J1 & _ & _).
  rewrite Hcc in Hcur. injection Hcur as ->. unfold analytic in Han.
  set (x0 := np_xmin p) in *. set (ls := np_lines p) in *.
  set (gx := filter (fun x => is_number (g x)) (linspace x0 0 np)) in *.
  destruct (rel_posterior_mass gx (finite_part (map g gx))) as [w0|] eqn:Hw0; [|discriminate]. cbn [rbind] in Han.
  destruct (average_by_key (integrals_dict ls) norm) as [a|] eqn:Ea; [|discriminate]. cbn [rbind] in Han.
  destruct (average_by_key (integrals_dict ls) cn) as [b|] eqn:Eb; [|discriminate]. cbn [rbind] in Han.
  injection Han as Hlx Hw Hcv. apply (average_areas names) in Ea; auto. apply (average_areas names) in Eb; auto.
  rewrite mean_mean_of in Ea, Eb by auto. subst a b.
  set (A := mean (areas names ls norm)) in *. set (B := mean (areas names ls cn)) in *.
  assert (Hnum : forall x, In x gx -> is_number (g x) = true).
  { intros x Hx. apply filter_In in Hx. tauto. }
  assert (Hsort : StronglySorted Rlt gx) by (apply sorted_filter, linspace_sorted; auto).
  pose proof (sorted_nth gx Hsort) as Hlt.
  destruct (finite_part_map g gx Hnum) as [Hfl Hfn].
  rewrite <- Hlx in *.
  destruct (C53_posterior_mass gx (finite_part (map g gx))) as (v & Hv1 & Hv2 & Hv3 & Hv4 & Hv5); auto.
  { intros i Hi. left. apply Hlt. lia. } { apply Hlt. lia. }
  assert (w0 = map Some v) by congruence. subst w0.
  assert (Hw' : w = map Some (map (fun u => u * A) v)).
  { rewrite <- Hw, !map_map. apply map_ext. intros u. reflexivity. }
  set (w' := map (fun u => u * A) v) in *.
  assert (Hcs : fcumsum_from (Some 0) (map (fun u => fmul u (Some A)) (map Some v)) = map Some (cumsum w')).
  { rewrite Hw, Hw', fcumsum_some. reflexivity. }
  rewrite Hcs, all_finite_some in Hcv. cbn [option_map] in Hcv.
  assert (Hlw : length w' = length gx) by (unfold w'; rewrite map_length; auto).
  assert (Hpos : forall i, (i < length gx)%nat -> 0 < sumR (firstn (S i) v)).
  { intros i Hi. destruct v as [|v0 v]; [cbn [length] in *; lia|]. cbn [firstn].
    assert (H0 : 0 < v0) by (apply Hv3; left; auto).
    assert (H1 : forall k, 0 <= sumR (firstn k v)).
    { assert (H2 : forall u, In u v -> 0 < u) by (intros; apply Hv3; right; auto).
      clear -H2. intros k. revert k. induction v as [|u v IH]; intros [|k]; cbn; try lra.
      assert (0 < u) by (apply H2; left; auto).
      assert (0 <= sumR (firstn k v)) by (apply IH; intros; apply H2; right; auto). unfold sumR in *. lra. }
    specialize (H1 i). unfold sumR in *. cbn [fold_right]. lra. }
  assert (Hsw : forall k, sumR (firstn k w') = sumR (firstn k v) * A).
  { unfold w'. clear. induction v as [|u v IH]; intros [|k]; cbn; try lra. specialize (IH k). unfold sumR in *.
    rewrite IH. lra. }
  assert (Hcn : forall i, (i < length gx)%nat -> nth i (cumsum w') 0 = sumR (firstn (S i) v) * A).
  { intros i Hi. rewrite nth_cumsum by lia. rewrite rsum_sumR. apply Hsw. }
  assert (Hs : trapz (cumsum w') gx <> 0).
  { replace (cumsum w') with (map (fun u => u * A) (cumsum v)).
    - rewrite trapz_mul. apply Rmult_integral_contrapositive. split; auto.
      enough (0 < trapz (cumsum v) gx) by lra. apply trapz_pos.
      + rewrite cumsum_length. auto.
      + intros i Hi. left. apply Hlt. lia.
      + apply Hlt. lia.
      + intros u Hu. apply (In_nth _ _ 0) in Hu as (i & Hi & <-). rewrite cumsum_length in Hi.
        rewrite nth_cumsum by auto. rewrite rsum_sumR. apply Hpos. lia.
    - apply (nth_ext' _ 0); [rewrite map_length, !cumsum_length; lia|].
      rewrite map_length, cumsum_length. intros i Hi.
      rewrite (map_nth_in _ _ _ 0 0) by (rewrite cumsum_length; auto). rewrite Hcn by lia.
      rewrite nth_cumsum, rsum_sumR by auto. auto. }
  set (S0 := trapz (cumsum w') gx) in *.
  split; [|split; auto].
  { intros x. unfold gx. rewrite filter_In. unfold linspace. rewrite in_map_iff. split.
    - intros ((i & Hi & Hin) & Hg). apply in_seq in Hin. split; [exists i; split; [lia|auto]|].
      destruct (g x); [discriminate|discriminate Hg].
    - intros ((i & Hi & Hin) & Hg). split; [exists i; split; [auto|apply in_seq; lia]|].
      destruct (g x); [auto|congruence]. }
  exists w', (map (fun u => u / S0 * B) (cumsum w')). split; auto. split.
  { rewrite <- Hcv, !map_map. apply map_ext. intros u. unfold fdiv. destruct (Req_EM_T S0 0); [congruence|]. auto. }
  split; auto. split; [rewrite map_length, cumsum_length; auto|]. split; [|split; [|split]].
  - intros i j li lj Hi Hj Hgi Hgj. rewrite Hfn in Hgi, Hgj by auto. injection Hgi as <-. injection Hgj as <-.
    unfold w'. rewrite !(map_nth_in _ _ _ 0 0) by lia. specialize (Hv4 i j Hi Hj). nra.
  - unfold w'. rewrite <- trapz_integral in * by (rewrite ?map_length; auto). rewrite trapz_mul, Hv5. lra.
  - intros i j Hi Hj. rewrite !(map_nth_in _ _ _ 0 0) by (rewrite cumsum_length; lia).
    rewrite !Hcn, !Hsw by auto. unfold Rdiv. ring.
  - rewrite <- trapz_integral by (rewrite map_length, cumsum_length; auto).
    rewrite <- (map_map (fun u => u / S0) (fun u => u * B)), trapz_mul, trapz_scale. fold S0. field. auto.
Qed.
Print Assumptions C77_curves.

(** With post_mass_norm a method without runs both curves are nan: average_by_key
    uses all runs only for a key which is missing. *)
Theorem C77_no_runs_for_norm : forall names d given g logx_min npoints m cum_norm p lx w c,
    fst (plot_run_nlive names d given (Some g) logx_min npoints (Some m) cum_norm) = Ok p ->
    np_curves p = Some (lx, w, c) -> NoDup names -> dict_get m d = Ok [] ->
    w = repeat None (length w) /\ c = repeat None (length c) /\ length w = length lx /\ length c = length lx /\
    (0 < length lx)%nat.
Proof.
  intros names d given g lm np m cn p lx w c Hp Hcur Hnd Hm.
  apply plot_inv in Hp as (Hc & Hml & _ & (cc & Han & Hcc)).
  destruct (methods_lines_effect given names d) as (_ & _ & H3). destruct (H3 _ Hml) as (J1 & J2 & _).
  rewrite Hcc in Hcur. injection Hcur as ->. unfold analytic in Han.
  set (ls := np_lines p) in *. set (gx := filter (fun x => is_number (g x)) (linspace (np_xmin p) 0 np)) in *.
  destruct (rel_posterior_mass gx (finite_part (map g gx))) as [w0|] eqn:Hw0; [|discriminate]. cbn [rbind] in Han.
  destruct (average_by_key (integrals_dict ls) (Some m)) as [a|] eqn:Ea; [|discriminate]. cbn [rbind] in Han.
  destruct (average_by_key (integrals_dict ls) cn) as [b|] eqn:Eb; [|discriminate]. cbn [rbind] in Han.
  injection Han as Hlx Hw Hcv.
  assert (Hl0 : length w0 = length gx /\ (0 < length gx)%nat).
  { unfold rel_posterior_mass in Hw0. destruct (length gx =? _)%nat eqn:E; [|discriminate]. apply Nat.eqb_eq in E.
    cbn [negb] in Hw0. revert E Hw0. generalize (finite_part (map g gx)). intros l E Hw0.
    destruct gx; [discriminate|].
    match type of Hw0 with Ok ?x = _ => assert (Hq : w0 = x) by congruence end. rewrite Hq.
    rewrite map_length, rel_length, map2_length. cbn [length] in *. lia. }
  apply (average_areas names) in Ea; auto.
  assert (Hin : In m names) by (apply Hc, dict_get_in; eauto).
  assert (He : areas names ls (Some m) = []).
  { unfold areas. destruct (in_dec Z.eq_dec m names); [|tauto].
    replace (flat_map _ ls) with (@nil line); auto. symmetry.
    clear -J2 Hm. induction ls as [|(k & xs) ls IH]; auto. cbn [flat_map].
    rewrite IH by (intros; apply J2; right; auto). rewrite app_nil_r.
    destruct (Z.eq_dec k m) as [->|]; auto. destruct (J2 m xs (or_introl eq_refl)) as (runs & Hr & Hs).
    assert (runs = []) by congruence. subst runs. inversion Hs. auto. }
  rewrite He in Ea. cbn [mean_of] in Ea. subst a.
  assert (Hwn : w = repeat None (length gx)).
  { rewrite <- Hw. destruct Hl0 as [<- _]. clear. induction w0 as [|[u|] t IH]; cbn; auto; rewrite IH; auto. }
  rewrite Hw, Hwn in Hcv.
  assert (Hcn : forall k s, fcumsum_from s (repeat None k) = repeat None k).
  { clear. induction k; intros s; cbn [repeat fcumsum_from]; auto.
    replace (fadd s None) with (@None R) by (destruct s; auto). rewrite IHk. auto. }
  rewrite Hcn in Hcv.
  assert (Hcv' : c = repeat None (length gx)).
  { rewrite <- Hcv. generalize (option_map (fun y => trapz y gx) (all_finite (repeat None (length gx)))). intros s.
    generalize (length gx). clear. induction n; cbn [repeat map]; auto. rewrite IHn. auto. }
  rewrite Hwn, Hcv', <- Hlx, !repeat_length. tauto.
Qed.
Print Assumptions C77_no_runs_for_norm.

(** Other names than the keys: AssertionError, and nothing is changed.  Without runs
    (and without logx_min): ValueError. *)
Theorem C77_errors : forall names d given logl_given logx_min npoints norm cum_norm,
    let out := plot_run_nlive names d given logl_given logx_min npoints norm cum_norm in
    (~ (forall m, In m names <-> In m (map fst d)) -> out = (Raise AssertionError, d)) /\
    ((forall m, In m names <-> In m (map fst d)) -> (forall m runs, dict_get m d = Ok runs -> runs = []) ->
     logx_min = None -> fst out = Raise ValueError).
Proof.
  intros names d given lg lm np norm cn out. unfold out, plot_run_nlive. split.
  - intros H. destruct (_ && _)%bool eqn:Hc; cbn [negb]; auto. apply names_checked in Hc. tauto.
  - intros H He ->. apply names_checked in H as Hc. rewrite Hc. cbn [negb].
    assert (Hm : exists ls, fst (methods_lines given names d) = Ok ls /\ flat_map snd ls = []).
    { assert (H' : forall m, In m names -> In m (map fst d)) by (intros; apply H; auto).
      clear -H' He. revert d H' He. induction names as [|m t IH]; intros d H' He; cbn [methods_lines].
      - exists []. auto.
      - destruct (proj2 (dict_get_in _ m d)) as (runs & Hr); [apply H'; left; auto|]. rewrite Hr.
        rewrite (He m runs Hr). cbn [runs_lines].
        destruct (IH (dict_set m [] d)) as (ls & H1 & H2).
        + intros k Hk. rewrite (dict_set_keys _ _ _ _ _ Hr). apply H'. right; auto.
        + intros k l. rewrite dict_get_set. destruct (k =? m)%Z; [congruence|]. apply He.
        + destruct (methods_lines given t (dict_set m [] d)) as [xs d'']. cbn [fst] in *. subst xs.
          cbn [rbind]. exists ((m, []) :: ls). split; auto. }
    destruct Hm as (ls & H1 & H2). destruct (methods_lines given names d) as [x d']. cbn [fst] in *. subst x.
    cbn [rbind]. rewrite H2. reflexivity.
Qed.
Print Assumptions C77_errors.

(** Runs which always work: positive numbers of live points (and no other source of
    logx), at least one run, and logl_given_logx a number everywhere. *)
Lemma run_line_ok : forall r, n_logx r = None -> n_nlive r <> [] -> (forall n, In n (n_nlive r) -> (0 < n)%Z) ->
    exists x v, run_line None r = (Ok x, r) /\ l_last x = Some v.
Proof.
  intros r Hx Hn Hp. unfold run_line, run_logx. rewrite Hx, get_logx_run by auto. cbn [rbind].
  assert (Hl : length (cumsum (logx_steps (n_nlive r) None)) = length (n_nlive r)).
  { rewrite cumsum_length. cbn [logx_steps]. apply map_length. }
  destruct (cumsum (logx_steps (n_nlive r) None)) as [|h t].
  - destruct (n_nlive r); [congruence|discriminate].
  - cbn [map]. cbn [length] in *. rewrite map_length, Hl, Nat.eqb_refl.
    eexists. exists (last (h :: t) 0). split; eauto. cbn [l_last]. clear. revert h.
    induction t as [|a t IH]; intros h; auto. change (last (Some h :: map Some (a :: t)) None)
      with (last (Some a :: map Some t) None). rewrite IH. auto.
Qed.
Theorem C77_succeeds : forall names d logl_given logx_min npoints norm cum_norm,
    (forall m, In m names <-> In m (map fst d)) ->
    (forall m runs r, dict_get m d = Ok runs -> In r runs ->
       n_logx r = None /\ n_nlive r <> [] /\ forall n, In n (n_nlive r) -> (0 < n)%Z) ->
    (exists m runs, dict_get m d = Ok runs /\ runs <> []) ->
    match logl_given with None => True | Some g => (0 < npoints)%nat /\ forall x, g x <> None end ->
    exists p, plot_run_nlive names d None logl_given logx_min npoints norm cum_norm = (Ok p, d).
Proof.
  intros names d lg lm np norm cn H Hr Hex Hg. unfold plot_run_nlive.
  apply names_checked in H as Hc. rewrite Hc. cbn [negb].
  assert (Hrl : forall l, (forall r, In r l -> n_logx r = None /\ n_nlive r <> [] /\ forall n, In n (n_nlive r) -> (0 < n)%Z) ->
            exists xs, runs_lines None l = (Ok xs, l) /\ length xs = length l /\
                       Forall (fun x => exists v, l_last x = Some v) xs).
  { clear. induction l as [|r l IH]; intros Hr; cbn [runs_lines]; [exists []; auto|].
    destruct (Hr r (or_introl eq_refl)) as (H1 & H2 & H3). destruct (run_line_ok r H1 H2 H3) as (x & v & -> & Hv).
    destruct IH as (xs & -> & Hl & Hf); [intros; apply Hr; right; auto|]. exists (x :: xs). cbn [rbind length].
    repeat split; eauto. }
  assert (Hsame : forall A k (v : A) d, dict_get k d = Ok v -> dict_set k v d = d).
  { clear. intros A k v d. induction d as [|(k' & v') d IH]; cbn [dict_get dict_set]; [discriminate|].
    destruct (k =? k')%Z eqn:E; intros H; [apply Z.eqb_eq in E; congruence|]. rewrite IH; auto. }
  assert (Hm : exists ls, methods_lines None names d = (Ok ls, d) /\ map fst ls = names /\
            (forall m xs, In (m, xs) ls -> exists runs, dict_get m d = Ok runs /\ length xs = length runs) /\
            Forall (fun x => exists v, l_last x = Some v) (flat_map snd ls)).
  { assert (H' : forall m, In m names -> In m (map fst d)) by (intros; apply H; auto).
    clear -H' Hrl Hsame Hr. induction names as [|m t IH]; cbn [methods_lines].
    - exists []. repeat split; auto; [intros ? ? []|constructor].
    - destruct (proj2 (dict_get_in _ m d)) as (runs & Hm); [apply H'; left; auto|]. rewrite Hm.
      destruct (Hrl runs) as (xs & -> & Hl & Hf); [intros; eapply Hr; eauto|]. rewrite (Hsame _ _ _ _ Hm).
      destruct IH as (ls & -> & I1 & I2 & I3); [intros; apply H'; right; auto|]. cbn [rbind].
      exists ((m, xs) :: ls). split; auto. cbn [map fst flat_map snd]. split; [congruence|]. split.
      + intros k ys [Hy|Hy]; [|eauto]. injection Hy as <- <-. eauto.
      + apply Forall_app. auto. }
  destruct Hm as (ls & -> & M1 & M2 & M3). cbn [rbind].
  destruct Hex as (m & runs & Hmr & Hne).
  assert (Hin : In m names) by (apply H, dict_get_in; eauto).
  rewrite <- M1 in Hin. apply in_map_iff in Hin as ((m' & xs) & <- & Hin). cbn [fst] in *.
  destruct (M2 m' xs Hin) as (runs' & Hr' & Hlr). assert (runs' = runs) by congruence. subst runs'.
  assert (Hlo : exists lo, match lm with
                | Some m => Ok m
                | None => match map l_last (flat_map snd ls) with
                          | [] => Raise ValueError
                          | l => match all_finite l with
                                 | Some xs => Ok (rmin xs)
                                 | None => Raise ValueError
                                 end
                          end
                end = Ok lo).
  { destruct lm as [q|]; eauto.
    assert (Hq : map l_last (flat_map snd ls) <> []).
    { intros Hz. apply map_eq_nil in Hz. destruct xs as [|x xs]; [destruct runs; [congruence|discriminate]|].
      assert (In x (flat_map snd ls)) by (apply in_flat_map; exists (m', x :: xs); split; auto; left; auto).
      rewrite Hz in *. auto. }
    destruct (all_finite (map l_last (flat_map snd ls))) as [q|] eqn:Eq.
    - destruct (map l_last (flat_map snd ls)); [congruence|]. rewrite Eq. eexists. reflexivity.
    - apply all_finite_none in Eq. apply in_map_iff in Eq as (x & Hx & Hi). rewrite Forall_forall in M3.
      destruct (M3 x Hi). congruence. }
  destruct Hlo as (lo & ->). cbn [rbind]. destruct lg as [g|]; [|eexists; reflexivity].
  destruct Hg as [Hn Hg]. unfold analytic.
  replace (filter (fun x => is_number (g x)) (linspace lo 0 np)) with (linspace lo 0 np).
  2:{ generalize (linspace lo 0 np). clear -Hg. induction l as [|x l IH]; auto. cbn [filter].
      specialize (Hg x). destruct (g x); [|congruence]. cbn [is_number]. f_equal. auto. }
  destruct (finite_part_map g (linspace lo 0 np)) as [Hfl _].
  { intros x _. specialize (Hg x). destruct (g x); [auto|congruence]. }
  assert (Hav : forall key, exists a, average_by_key (integrals_dict ls) key = Ok a).
  { assert (Hne' : integrals_dict ls <> []).
    { unfold integrals_dict. destruct ls as [|(k & l) ls]; [destruct Hin|]. cbn [fold_left dict_set].
      assert (Hd : forall ls d, d <> [] ->
         fold_left (fun d '(m, l) => dict_set m (finite_part (map l_area l)) d) ls d <> []).
      { clear. induction ls as [|(k & l) ls IH]; intros d Hd; cbn [fold_left]; auto. apply IH.
        destruct d as [|(k' & v) d]; cbn [dict_set]; [discriminate|]. destruct (k =? k')%Z; discriminate. }
      apply Hd. discriminate. }
    intros key. unfold average_by_key. destruct (integrals_dict ls) as [|z l]; [congruence|].
    destruct key as [k|]; eauto. destruct (dict_get k (z :: l)); eauto. }
  unfold rel_posterior_mass. rewrite Hfl, Nat.eqb_refl. cbn [negb].
  destruct (linspace lo 0 np) as [|y l] eqn:El.
  { unfold linspace in El. apply map_eq_nil in El. destruct np; [lia|discriminate]. }
  destruct (Hav norm) as (a & Ha), (Hav cn) as (b & Hb).
  cbn [rbind]. rewrite Ha. cbn [rbind]. rewrite Hb. cbn [rbind]. eexists. reflexivity.
Qed.
Print Assumptions C77_succeeds.

(** ** A second call *)
Definition several (r : nrun) : Prop := forall l, n_logx r = Some l -> (2 <= length l)%nat.
Lemma run_line_again : forall given r x, several r -> fst (run_line given r) = Ok x ->
    run_line given (zero_first r) = (Ok x, zero_first r).
Proof.
  intros given r x Hs H. destruct (n_logx r) as [l|] eqn:E.
  - unfold run_line, run_logx, zero_first, several in *. rewrite E in *. specialize (Hs l eq_refl).
    destruct l as [|h [|a t]]; cbn [length] in Hs; try lia. cbn [n_logx n_nlive n_logl].
    destruct (_ =? _)%nat; cbn [fst] in H; [|discriminate]. injection H as <-. reflexivity.
  - assert (Hz : zero_first r = r) by (unfold zero_first; rewrite E; auto). rewrite Hz.
    destruct (run_line_effect given r) as [_ H2]. destruct (H2 x H) as [H3 _]. rewrite Hz in H3.
    destruct (run_line given r); cbn [fst snd] in *. congruence.
Qed.
Lemma runs_lines_again : forall given l xs, Forall several l -> fst (runs_lines given l) = Ok xs ->
    runs_lines given (map zero_first l) = (Ok xs, map zero_first l).
Proof.
  intros given l. induction l as [|r l IH]; intros xs Hs; cbn [runs_lines map]; [intros H; injection H as <-; auto|].
  inversion Hs as [|? ? H1 H2]; subst. pose proof (run_line_again given r) as Hr.
  destruct (run_line given r) as [[x|] r']; [|discriminate]. rewrite (Hr x) by auto.
  destruct (runs_lines given l) as [[ys|] l']; cbn [fst rbind]; [|discriminate]. intros H. injection H as <-.
  rewrite (IH ys) by auto. reflexivity.
Qed.
Lemma dict_set_same : forall A k (v : A) d, dict_get k d = Ok v -> dict_set k v d = d.
Proof.
  intros A k v d. induction d as [|(k' & v') d IH]; cbn [dict_get dict_set]; [discriminate|].
  destruct (k =? k')%Z eqn:E; intros H; [apply Z.eqb_eq in E; congruence|]. rewrite IH; auto.
Qed.
Lemma methods_lines_again : forall given names d d2 ls,
    (forall m runs, In m names -> dict_get m d = Ok runs ->
       Forall several runs /\ dict_get m d2 = Ok (map zero_first runs)) ->
    fst (methods_lines given names d) = Ok ls -> methods_lines given names d2 = (Ok ls, d2).
Proof.
  intros given names. induction names as [|m t IH]; intros d d2 ls Hd; cbn [methods_lines].
  - intros H. injection H as <-. auto.
  - destruct (dict_get m d) as [runs|] eqn:Hm; [|discriminate].
    destruct (Hd m runs (or_introl eq_refl) Hm) as [Hs H2]. rewrite H2.
    pose proof (runs_lines_again given runs) as Ha. destruct (runs_lines_effect given runs) as [_ He].
    destruct (runs_lines given runs) as [[x|] runs']; [|discriminate]. cbn [fst snd] in *.
    destruct (He x eq_refl) as [-> _]. rewrite (Ha x) by auto.
    specialize (IH (dict_set m (map zero_first runs) d)). rewrite (dict_set_same _ _ _ _ H2).
    destruct (methods_lines given t (dict_set m (map zero_first runs) d)) as [[xs|] d'']; cbn [fst rbind]; [|discriminate].
    intros H. injection H as <-. rewrite (IH d2 xs); auto. intros k rk Hk. rewrite dict_get_set.
    destruct (k =? m)%Z eqn:E; [|apply Hd; right; auto]. apply Z.eqb_eq in E. subst k. intros Hr. injection Hr as <-.
    split.
    + rewrite Forall_forall in *. intros r Hr. apply in_map_iff in Hr as (r0 & <- & Hr0). specialize (Hs r0 Hr0).
      unfold several, zero_first in *. destruct (n_logx r0) as [[|h q]|] eqn:En; cbn [n_logx].
      * rewrite En. auto.
      * intros l Hl. injection Hl as <-. specialize (Hs _ eq_refl). auto.
      * rewrite En. discriminate.
    + rewrite H2, map_map. f_equal. apply map_ext. intros. symmetry. apply zero_first_idem.
Qed.
(** Although the runs are changed, a second call gives the same plot and changes
    nothing, if no run has a key 'logx' with one element only. *)
Theorem C77_again : forall names d given logl_given logx_min npoints norm cum_norm p d',
    plot_run_nlive names d given logl_given logx_min npoints norm cum_norm = (Ok p, d') ->
    (forall m runs r l, dict_get m d = Ok runs -> In r runs -> n_logx r = Some l -> (2 <= length l)%nat) ->
    plot_run_nlive names d' given logl_given logx_min npoints norm cum_norm = (Ok p, d').
Proof.
  intros names d given lg lm np norm cn p d' Hp Hs. unfold plot_run_nlive in *.
  destruct (methods_lines_effect given names d) as (H1 & _ & H3).
  destruct (_ && _)%bool eqn:Hc in Hp; cbn [negb] in Hp; [|discriminate].
  pose proof (methods_lines_again given names d) as Ha.
  destruct (methods_lines given names d) as [[ls|] d1]; [|discriminate]. cbn [fst snd] in *.
  assert (d1 = d').
  { cbn [rbind] in Hp. destruct (match lm with Some m => Ok m | None => _ end); [|discriminate]. cbn [rbind] in Hp.
    destruct (match lg with None => Ok None | Some g => _ end); [|discriminate]. cbn [rbind] in Hp. congruence. }
  subst d1. rewrite H1, Hc. cbn [negb]. rewrite (Ha d' ls); auto.
  intros m runs Hin Hm. split.
  - apply Forall_forall. intros r Hr l Hl. eapply Hs; eauto.
  - destruct (H3 ls eq_refl) as (_ & _ & J). rewrite (J m runs Hm).
    replace (existsb (Z.eqb m) names) with true; auto. symmetry. apply existsb_exists. exists m.
    split; auto. apply Z.eqb_refl.
Qed.
Print Assumptions C77_again.
(** With one element the limit of the axis is 0 in the second call. *)
Theorem C77_again_refuted : exists d p d' p',
    plot_run_nlive [7%Z] d None None None 100 None None = (Ok p, d') /\
    plot_run_nlive [7%Z] d' None None None 100 None None = (Ok p', d') /\
    np_xmin p = -3 /\ np_xmin p' = 0.
Proof.
  exists [(7%Z, [mkNRun [5%Z] [1%Z] (Some [Some (-3)])])].
  eexists. eexists. eexists. split; [cbn; reflexivity|]. split; [cbn; reflexivity|]. split; reflexivity.
Qed.
Print Assumptions C77_again_refuted.

(** Two static runs of one method and a dynamic one of another; the curves exist, and
    are normalised with the areas 3 and 2 of the first method. *)
Definition nr_a := mkNRun [2; 2; 2]%Z [1; 2; 3]%Z None.
Definition nr_b := mkNRun [4; 4]%Z [1; 2]%Z None.
Definition nr_c := mkNRun [1; 2; 1]%Z [1; 2; 3]%Z (Some [Some (-1); Some (-2); Some (-4)]).
Example C77_example : exists p lx w c,
    fst (plot_run_nlive [1; 2]%Z [(1%Z, [nr_a; nr_b]); (2%Z, [nr_c])] None (Some (fun x => Some (- x)))
                        (Some (-5)) 100 (Some 1%Z) None) = Ok p /\
    np_curves p = Some (lx, w, c) /\
    areas [1; 2]%Z (np_lines p) (Some 1%Z) = [3; 2] /\
    areas [1; 2]%Z (np_lines p) None = [3; 2; 6].
Proof.
  assert (Hok : exists p, fst (plot_run_nlive [1; 2]%Z [(1%Z, [nr_a; nr_b]); (2%Z, [nr_c])] None (Some (fun x => Some (- x)))
                        (Some (-5)) 100 (Some 1%Z) None) = Ok p /\
            np_lines p = [(1%Z, [mkLine [Some 0; Some (0 + -1 * / 2 + -1 * / 2); Some (0 + -1 * / 2 + -1 * / 2 + -1 * / 2)]
                                        [2; 2; 2]%Z (Some (0 + -1 * / 2 + -1 * / 2 + -1 * / 2)) (Some 3);
                                 mkLine [Some 0; Some (0 + -1 * / 4 + -1 * / 4)] [4; 4]%Z
                                        (Some (0 + -1 * / 4 + -1 * / 4)) (Some 2)]);
                          (2%Z, [mkLine [Some 0; Some (-2); Some (-4)] [1; 2; 1]%Z (Some (-4)) (Some 6)])] /\
            exists lx w c, np_curves p = Some (lx, w, c)).
  { unfold plot_run_nlive. cbn [forallb existsb Z.eqb map fst andb orb negb Pos.eqb].
    replace (methods_lines None [1%Z; 2%Z] [(1%Z, [nr_a; nr_b]); (2%Z, [nr_c])]) with
      (Ok [(1%Z, [mkLine [Some 0; Some (0 + -1 * / 2 + -1 * / 2); Some (0 + -1 * / 2 + -1 * / 2 + -1 * / 2)]
                                        [2; 2; 2]%Z (Some (0 + -1 * / 2 + -1 * / 2 + -1 * / 2)) (Some 3);
                                 mkLine [Some 0; Some (0 + -1 * / 4 + -1 * / 4)] [4; 4]%Z
                                        (Some (0 + -1 * / 4 + -1 * / 4)) (Some 2)]);
                          (2%Z, [mkLine [Some 0; Some (-2); Some (-4)] [1; 2; 1]%Z (Some (-4)) (Some 6)])],
       [(1%Z, [nr_a; nr_b]); (2%Z, [mkNRun [1; 2; 1]%Z [1; 2; 3]%Z (Some [Some 0; Some (-2); Some (-4)])])]).
    2:{ cbn -[IZR]. repeat (f_equal; try (cbn; lra)). }
    cbn [rbind]. unfold analytic.
    set (gx := filter _ _). destruct (rel_posterior_mass gx (finite_part (map (fun x => Some (- x)) gx))) as [w0|] eqn:E.
    - cbn [rbind average_by_key integrals_dict fold_left dict_set dict_get Z.eqb Pos.eqb fst].
      eexists. split; [reflexivity|]. cbn [np_lines np_curves]. split; auto. eexists. eexists. eexists. reflexivity.
    - exfalso. unfold rel_posterior_mass in E. destruct (finite_part_map (fun x => Some (- x)) gx) as [Hl _]; [auto|].
      rewrite Hl, Nat.eqb_refl in E. cbn [negb] in E. unfold gx, linspace in E. cbn [seq map filter is_number] in E.
      discriminate. }
  destruct Hok as (p & H1 & H2 & lx & w & c & H3). exists p, lx, w, c. split; auto. split; auto. rewrite H2. split.
  - unfold areas. cbn. reflexivity.
  - unfold areas. cbn. reflexivity.
Qed.
