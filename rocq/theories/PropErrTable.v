(** C86: the table of error_values_summary. *)
From Coq Require Import Reals String Ascii Sorted.
From Verif Require Import Base ModelRun ModelBoot ModelParallel ModelReal ModelStats
     Spec SpecRun SpecReal ProofBase ProofMonad ProofReal ProofStats PropSummary ModelFrames ProofFrames PropFrames PropGroups.
Local Open Scope string_scope.
Local Open Scope list_scope.
Local Open Scope nat_scope.

(** ** Groups of the data frame of error values *)
Lemma before_irrefl : forall a, ~ before a a.
Proof.
  induction a as [|x a IH]; intros H; inversion H; subst; auto. rewrite scompare_refl in *. discriminate.
Qed.
Lemma before_length : forall a b, before a b -> length a = length b.
Proof. induction 1; cbn; auto. Qed.
Lemma before_trans : forall a b c, before a b -> before b c -> before a c.
Proof.
  intros a b c H. revert c. induction H as [x y a b Hc Hl|x a b H IH]; intros c H'; inversion H'; subst.
  - apply before_here; [eapply scompare_trans; eauto|congruence].
  - apply before_here; auto. rewrite Hl. apply before_length. auto.
  - apply before_here; auto. rewrite (before_length _ _ H). auto.
  - apply before_later. auto.
Qed.
Lemma ssorted_same : forall (l m : list (list string)), StronglySorted before l -> StronglySorted before m ->
    (forall k, In k l <-> In k m) -> l = m.
Proof.
  induction l as [|x l IH]; intros m Hl Hm He.
  - destruct m as [|y m]; auto. destruct (proj2 (He y)); left; auto.
  - destruct m as [|y m]; [destruct (proj1 (He x)); left; auto|].
    inversion_clear Hl as [|? ? Sl Fl]. inversion_clear Hm as [|? ? Sm Fm]. rewrite Forall_forall in Fl, Fm.
    assert (x = y).
    { destruct (proj1 (He x) (or_introl eq_refl)) as [|Hx]; auto. destruct (proj2 (He y) (or_introl eq_refl)) as [|Hy]; auto.
      exfalso. eapply before_irrefl. eapply before_trans; [apply Fl|apply Fm]; eauto. }
    subst y. f_equal. apply IH; auto. intros k. split; intros Hk.
    + destruct (proj1 (He k) (or_intror Hk)) as [->|]; auto. exfalso. eapply before_irrefl. apply Fl. eauto.
    + destruct (proj2 (He k) (or_intror Hk)) as [->|]; auto. exfalso. eapply before_irrefl. apply Fm. eauto.
Qed.
Lemma error_rows_length : forall runs frames r, In r (error_rows runs frames) -> length (fst r) = 2.
Proof.
  intros runs frames r H. unfold error_rows in H. apply in_flat_map in H. destruct H as ((c & (n & cols)) & _ & H).
  apply in_map_iff in H. destruct H as (i & <- & _). auto.
Qed.
Lemma error_keys : forall runs frames k, Forall (fun f => 0 < fst (snd f)) frames ->
    In k (group_keys [0] (error_rows runs frames)) <-> In k (map (fun f => [calc_name (fst f)]) frames).
Proof.
  intros runs frames k Hn. unfold group_keys.
  set (ks := nodup _ _). set (s := sort_rows _ _).
  assert (P : Permutation (map fst s) ks).
  { unfold s. rewrite <- (map_pair_fst ks) at 2. apply Permutation_map, sort_perm. }
  assert (Q : In k (map fst s) <-> In k ks) by (split; apply Permutation_in; [|symmetry]; auto).
  rewrite Q. unfold ks. rewrite nodup_In. rewrite !in_map_iff. rewrite Forall_forall in Hn. split.
  - intros (r & <- & H). apply in_flat_map in H. destruct H as ((c & (n & cols)) & Hf & H).
    apply in_map_iff in H. destruct H as (i & <- & _). eexists. split; [|exact Hf]. reflexivity.
  - intros (f & <- & Hf). destruct f as (c & (n & cols)). specialize (Hn _ Hf). cbn in Hn.
    exists ([calc_name c; nth 0 (runs c) ""], map (fun col => nth 0 col None) cols). split; auto.
    unfold error_rows. apply in_flat_map. eexists. split; [exact Hf|]. cbn. apply in_map_iff. exists 0. split; auto.
    apply in_seq. lia.
Qed.
Definition of_group (k : list string) (df : rows (list string)) : list (list fl) :=
  map snd (filter (fun r => strings_eqb (map (fun i => nth i (fst r) "") [0]) k) df).
Lemma strings_eqb_one : forall a b, strings_eqb [a] [b] = String.eqb a b.
Proof.
  intros. destruct (String.eqb_spec a b) as [->|H]; unfold strings_eqb; destruct (list_eq_dec _ _ _); auto; congruence.
Qed.
Lemma of_group_spec : forall runs frames c n cols, NoDup (map (fun f => calc_name (fst f)) frames) ->
    In (c, (n, cols)) frames ->
    of_group [calc_name c] (error_rows runs frames) = map (fun i => map (fun col => nth i col None) cols) (seq 0 n).
Proof.
  intros runs frames c n cols. unfold of_group. cbn [map].
  assert (A : forall d c n cols, calc_name c = d ->
    map snd (filter (fun r : list string * list fl => strings_eqb [nth 0 (fst r) ""] [d])
      (map (fun i => ([calc_name c; nth i (runs c) ""], map (fun col => nth i col None) cols)) (seq 0 n))) =
    map (fun i => map (fun col => nth i col (None : fl)) cols) (seq 0 n)).
  { clear. intros d c n cols <-. generalize (seq 0 n). induction l as [|i l IH]; cbn; auto.
    rewrite strings_eqb_one, String.eqb_refl. cbn. f_equal. exact IH. }
  assert (B : forall d c n cols, calc_name c <> d ->
    map snd (filter (fun r : list string * list fl => strings_eqb [nth 0 (fst r) ""] [d])
      (map (fun i => ([calc_name c; nth i (runs c) ""], map (fun col => nth i col (None : fl)) cols)) (seq 0 n))) = []).
  { clear. intros d c n cols Hd. generalize (seq 0 n). induction l as [|i l IH]; cbn; auto.
    rewrite strings_eqb_one. destruct (String.eqb_spec (calc_name c) d); [contradiction|]. exact IH. }
  assert (C : forall d fr, ~ In d (map (fun f => calc_name (fst f)) fr) ->
    map snd (filter (fun r : list string * list fl => strings_eqb [nth 0 (fst r) ""] [d]) (error_rows runs fr)) = []).
  { induction fr as [|(c' & (n' & cols')) fr IH]; cbn [error_rows flat_map map In fst]; intros Hd; auto.
    rewrite filter_app, map_app, B by tauto. apply IH. tauto. }
  induction frames as [|(c' & (n' & cols')) frames IH]; cbn [map In fst]; intros Hd Hi; [destruct Hi|].
  inversion_clear Hd as [|? ? Hn Hd']. cbn [error_rows flat_map]. rewrite filter_app, map_app. destruct Hi as [E|Hi].
  - injection E as -> -> ->. rewrite A by auto. fold (error_rows runs frames). rewrite C by auto. apply app_nil_r.
  - rewrite B; [apply IH; auto|]. intros E. apply Hn. rewrite E.
    apply (in_map (fun f : calc * (nat * list (list fl)) => calc_name (fst f))) in Hi. exact Hi.
Qed.
Lemma transpose_back : forall ncols n (cols : list (list fl)), length cols = ncols -> Forall (fun c => length c = n) cols ->
    rows_of ncols (map (fun i => map (fun col => nth i col None) cols) (seq 0 n)) = cols.
Proof.
  intros ncols n cols Hl Hc. apply (nth_ext _ _ [] []); [rewrite rows_of_length; auto|].
  intros j Hj. rewrite rows_of_length in Hj. unfold rows_of.
  rewrite (nth_indep _ [] (nth_row (map (fun i => map (fun col => nth i col None) cols) (seq 0 n)) 0)) by (rewrite map_length, seq_length; auto).
  rewrite map_nth, seq_nth by auto. cbn [Nat.add]. unfold nth_row. rewrite map_map.
  assert (Hjc : nth_error cols j = Some (nth j cols [])) by (apply nth_error_nth'; lia).
  rewrite Forall_forall in Hc. pose proof (Hc _ (nth_error_In _ _ Hjc)) as Hn. set (c := nth j cols []) in *.
  transitivity (map (fun i => nth i c None) (seq 0 n)).
  - apply map_ext. intros i. rewrite (nth_indep _ None (nth i [] None)) by (rewrite map_length; lia).
    rewrite (map_nth (fun col => nth i col None)). reflexivity.
  - rewrite <- Hn. clear. apply (nth_ext _ _ None None); [rewrite map_length, seq_length; auto|].
    intros i Hi. rewrite map_length, seq_length in Hi.
    rewrite (nth_indep _ None (nth 0 c None)) by (rewrite map_length, seq_length; auto).
    rewrite (map_nth (fun i => nth i c None)), seq_nth by auto. auto.
Qed.

(** ** C86: the rows of the error summary *)
(** Value and uncertainty of one quantity. *)
Definition pair_rows (name : string) (v u : list fl) : rows (list string) := [([name; "value"], v); ([name; "uncertainty"], u)].
(** Data frames of error values: those of run_list_error_values (C43). *)
Inductive error_frames (ncols : nat) : list (calc * (nat * list (list fl))) -> Prop :=
| error_frames_intro : forall v b t d,
    (t = [] \/ exists x, t = [(CThreadKs, x)]) ->
    (d = [] \/ exists x y z, d = [(CBsDist 1, x); (CBsDist 2, y); (CBsDist 3, z)]) ->
    Forall (fun f => 0 < fst (snd f) /\ length (snd (snd f)) = ncols /\ Forall (fun c => length c = fst (snd f)) (snd (snd f)))
           ([(CValues, v); (CBsStd, b)] ++ t ++ d) ->
    error_frames ncols ([(CValues, v); (CBsStd, b)] ++ t ++ d).
(** Means and their uncertainties of a calculation, if it was made. *)
Definition mean_rows (name : string) (c : calc) (g : list (calc * list colsum)) : rows (list string) :=
  flat_map (fun p => pair_rows name (map s_mean (snd p)) (map s_mean_unc (snd p)))
           (filter (fun p => match fst p, c with
                             | CValues, CValues | CBsStd, CBsStd | CThreadKs, CThreadKs => true
                             | CBsDist i, CBsDist j => (i =? j)%nat
                             | _, _ => false end) g).
Definition std_rows (name : string) (g : list (calc * list colsum)) : rows (list string) :=
  flat_map (fun p => match fst p with CValues => pair_rows name (map s_std (snd p)) (map s_std_unc (snd p)) | _ => [] end) g.
Definition rms_rows (name : string) (g : list (calc * list colsum)) : rows (list string) :=
  flat_map (fun p => match fst p with
                     | CValues => pair_rows name (map (fun c => fst (get_rmse c)) (snd p)) (map (fun c => snd (get_rmse c)) (snd p))
                     | _ => [] end) g.
Definition imp_rows (name frac : string) (i : list imp) : rows (list string) :=
  pair_rows name (map imp_std i) (map imp_std_u i) ++ pair_rows frac (map imp_frac i) (map imp_frac_u i).
(** The whole table. *)
Definition error_table (first : list (list fl)) (s : err_summary) : rows (list string) :=
  map (fun t => (["true values"; "value"], t)) first ++
  mean_rows "values mean" CValues (e_groups s) ++
  std_rows "values std" (e_groups s) ++
  match e_imp_rmse s with Some _ => rms_rows "values rmse" (e_groups s) | None => [] end ++
  mean_rows "bootstrap std mean" CBsStd (e_groups s) ++
  imp_rows "implementation std" "implementation std frac" (e_imp s) ++
  match e_imp_rmse s with Some i => imp_rows "implementation rmse" "implementation rmse frac" i | None => [] end ++
  mean_rows "thread ks pvalue mean" CThreadKs (e_groups s) ++
  mean_rows "bootstrap ks distance mean" (CBsDist 1) (e_groups s) ++
  mean_rows "bootstrap energy distance mean" (CBsDist 3) (e_groups s) ++
  mean_rows "bootstrap earth mover distance mean" (CBsDist 2) (e_groups s).

Lemma frame_keys : forall runs frames sorted, Forall (fun f => 0 < fst (snd f)) frames ->
    StronglySorted before sorted -> (forall k, In k sorted <-> In k (map (fun f => [calc_name (fst f)]) frames)) ->
    group_keys [0] (error_rows runs frames) = sorted.
Proof.
  intros runs frames sorted Hn Hs He. apply ssorted_same; auto.
  - destruct (group_keys_spec [calculation_type; "run"] [calculation_type] [0] (error_rows runs frames)) as (G & _); auto.
    + repeat constructor; cbn; intuition discriminate.
    + intros r Hr. rewrite (error_rows_length _ _ _ Hr). auto.
  - intros k. rewrite error_keys by auto. symmetry. apply He.
Qed.
(** Rows of one group. *)
Definition group_rows (rm : bool) (name : string) (cs : list colsum) : rows (list string) :=
  pair_rows (String.append name " mean") (map s_mean cs) (map s_mean_unc cs) ++
  pair_rows (String.append name " std") (map s_std cs) (map s_std_unc cs) ++
  (if rm then pair_rows (String.append name " rmse") (map (fun c => fst (get_rmse c)) cs) (map (fun c => snd (get_rmse c)) cs)
   else []).
Lemma group_frame : forall py3 n cols tv rm cs name, Forall (fun c => length c = n) cols -> summary_df py3 n cols tv rm = Ok cs ->
    exists f, summary_frame py3 n cols tv false rm = Ok f /\
      map (fun p => (multi_label [calculation_type] [name] (fst p), snd p)) f = group_rows rm name cs.
Proof.
  intros py3 n cols tv rm cs name Hn H. destruct (C84_summary_rows py3 n cols tv false rm cs Hn H) as (_ & G).
  destruct G as (fi & la & G & _ & G0 & G1 & G2); [discriminate|]. rewrite G. eexists. split; [reflexivity|].
  rewrite (G0 eq_refl). unfold group_rows. destruct rm; [rewrite (G1 eq_refl)|rewrite (G2 eq_refl)]; reflexivity.
Qed.
Definition with_true (it : bool) (tv : option (list fl)) (X : rows (list string)) : res (rows (list string)) :=
  if it then match tv with Some t => Ok (X ++ [(["true values"; "value"], t)]) | None => Raise AssertionError end else Ok X.
Lemma group_rows_not_true : forall rm name cs, Forall (fun p => strings_eqb (fst p) ["true values"; "value"] = false) (group_rows rm name cs).
Proof.
  assert (G : forall a c b, In c ["mean"; "std"; "rmse"] ->
    strings_eqb [String.append a (String.append " " c); b] ["true values"; "value"] = false).
  { intros a c b Hc. destruct (strings_eqb _ _) eqn:E; auto. apply strings_eqb_eq in E. injection E as E _.
    exfalso. eapply joined_name; eauto. }
  intros rm name cs. unfold group_rows, pair_rows. cbn [app].
  constructor; [apply (G name "mean"); cbn; auto|]. constructor; [apply (G name "mean"); cbn; auto|].
  constructor; [apply (G name "std"); cbn; auto|]. constructor; [apply (G name "std"); cbn; auto|].
  destruct rm; constructor; [apply (G name "rmse"); cbn; auto|]. constructor; [apply (G name "rmse"); cbn; auto|]. constructor.
Qed.
Lemma multi_ok : forall py3 runs ncols frames sframes css tv it rm,
    Forall (fun f => 0 < fst (snd f) /\ length (snd (snd f)) = ncols /\ Forall (fun c => length c = fst (snd f)) (snd (snd f))) frames ->
    NoDup (map (fun f => calc_name (fst f)) frames) -> frames <> [] ->
    (forall f, In f sframes <-> In f frames) -> StronglySorted before (map (fun f => [calc_name (fst f)]) sframes) ->
    Forall2 (fun f cs => summary_df py3 (fst (snd f)) (snd (snd f)) tv rm = Ok cs) sframes css ->
    summary_df_from_multi py3 [calculation_type; "run"] ncols (error_rows runs frames) None tv it rm =
    with_true it tv (concat (map2 (fun f cs => group_rows rm (calc_name (fst f)) cs) sframes css)).
Proof.
  intros py3 runs ncols frames sframes css tv it rm Hf Hd Hne Hin Hs Hc.
  unfold summary_df_from_multi. cbn [removelast mapM rbind level existsb orb].
  change (level [calculation_type; "run"] calculation_type) with (Ok 0). cbn [rbind].
  fold (group_keys [0] (error_rows runs frames)).
  rewrite (frame_keys runs frames (map (fun f => [calc_name (fst f)]) sframes)); auto.
  2:{ eapply Forall_impl; [|exact Hf]. intros f Hx. exact (proj1 Hx). }
  2:{ intros k. rewrite !in_map_iff. split; intros (f & E & H); exists f; split; auto; apply Hin; auto. }
  assert (G : forall sf cs', (forall f, In f sf -> In f frames) ->
    Forall2 (fun f cs => summary_df py3 (fst (snd f)) (snd (snd f)) tv rm = Ok cs) sf cs' ->
    mapM (fun k =>
          let vals := map snd (filter (fun r => strings_eqb (map (fun i => nth i (fst r) "") [0]) k) (error_rows runs frames)) in
          let! f := summary_frame py3 (length vals) (rows_of ncols vals) tv false rm in
          Ok (map (fun p => (multi_label [calculation_type] k (fst p), snd p)) f)) (map (fun f => [calc_name (fst f)]) sf) =
    Ok (map2 (fun f cs => group_rows rm (calc_name (fst f)) cs) sf cs')).
  { clear Hin Hs Hc sframes css. intros sf cs' Hi H. induction H as [|f cs sf cs' Hc H IH]; auto.
    cbn [map mapM]. cbv zeta.
    destruct f as (c & (n & cols)). cbn [fst snd] in *.
    assert (Hin : In (c, (n, cols)) frames) by (apply Hi; left; auto).
    pose proof (of_group_spec runs frames c n cols Hd Hin) as Hg. unfold of_group in Hg. cbn [map] in Hg. cbn [map]. rewrite Hg. clear Hg.
    rewrite map_length, seq_length.
    rewrite Forall_forall in Hf. specialize (Hf _ Hin). cbn in Hf. destruct Hf as (_ & Hl & Hf).
    rewrite transpose_back by auto.
    destruct (group_frame py3 n cols tv rm cs (calc_name c) Hf Hc) as (fr & E1 & E2). rewrite E1. cbn [rbind]. rewrite E2.
    cbv zeta in IH. cbn [map] in IH. rewrite IH by (intros; apply Hi; right; auto). reflexivity. }
  cbv zeta in G. rewrite (G sframes css) by (auto; intros; apply Hin; auto). cbn [rbind].
  assert (Hne' : map2 (fun f cs => group_rows rm (calc_name (fst f)) cs) sframes css <> []).
  { destruct Hc as [|f cs sf cs']; [|discriminate]. destruct frames as [|f fr]; [congruence|].
    destruct (proj2 (Hin f)); left; auto. }
  assert (N : Forall (fun p => strings_eqb (fst p) ["true values"; "value"] = false)
                (concat (map2 (fun f cs => group_rows rm (calc_name (fst f)) cs) sframes css))).
  { clear. revert css. induction sframes as [|f sf IH]; destruct css as [|cs css]; try solve [constructor].
    change (map2 _ _ _) with (group_rows rm (calc_name (fst f)) cs :: map2 (fun f cs => group_rows rm (calc_name (fst f)) cs) sf css).
    cbn [concat]. apply Forall_app. split; [apply group_rows_not_true|apply IH]. }
  destruct (map2 _ sframes css) as [|g gs] eqn:E; [congruence|]. rewrite <- E in *. unfold with_true.
  destruct it; auto. destruct tv as [t|]; auto. f_equal. apply set_row_new. exact N.
Qed.

(** Selection of the rows and their order. *)
Definition chosen (df : rows (list string)) : rows (list string) :=
  flat_map (fun c => filter (fun p => String.eqb (calc_of p) c) df) calcs_to_keep.
Ltac table_case sf cc vs bs :=
  exists sf, cc; split; [intros f; cbn [In]; tauto|];
  split; [cbn [map fst calc_name]; repeat (constructor; [|repeat (constructor; [apply before_here; reflexivity|]); constructor]); constructor|];
  split; [repeat (constructor; [cbn [fst snd]; assumption|]); constructor|];
  exists vs, bs; split; [reflexivity|]; split; [reflexivity|];
  intros first i1 i2 Hfi Hi X ->;
  match goal with K : first = [] \/ _ |- _ => destruct K as [->|(tr & ->)] end;
  (match type of Hi with ?rm = true <-> _ => destruct rm end);
  (destruct i2 as [i2|]; [|]);
  try (exfalso; first [apply (proj1 Hi); reflexivity|discriminate (proj2 Hi ltac:(discriminate))]);
  (repeat split; try discriminate; vm_compute; reflexivity).
(** The table has exactly these rows in this order, each value followed by its
    uncertainty; the numbers are those of C41 and C57. *)
Theorem C86_error_table : forall E (norm : normals E) py3 runs ncols frames tv it rm s (w w' : world E),
    error_frames ncols frames ->
    error_values_summary norm py3 frames tv rm w = (Ok s, w') ->
    let table := error_values_frame norm py3 ncols (error_rows runs frames) tv it rm w in
    (rm = true <-> e_imp_rmse s <> None) /\
    (it = true -> tv = None -> table = (Raise AssertionError, w)) /\
    ((it = true -> tv <> None) ->
       exists first, table = (Ok (error_table first s), w') /\
         (it = true -> exists t, tv = Some t /\ first = [t]) /\ (it = false -> first = [])).
Proof.
  intros E norm py3 runs ncols frames tv it rm s w w' Hfr H table.
  unfold table, error_values_frame, implementation_rows, error_values_summary in *. clear table.
  set (nsim := Z.to_nat 1000000) in *. clearbody nsim.
  unfold wbind at 1, wlift at 1 in H.
  destruct (mapM _ frames) as [groups|] eqn:Eg; [|discriminate]. apply mapM_F2 in Eg.
  assert (Hd : NoDup (map (fun f => calc_name (fst f)) frames)).
  { destruct Hfr as [v b t d Ht Hd _]. destruct Ht as [->|(x & ->)]; destruct Hd as [->|(y1 & y2 & y3 & ->)];
      repeat constructor; cbn; intuition discriminate. }
  assert (Hne : frames <> []) by (destruct Hfr; discriminate).
  assert (Hall : Forall (fun f => 0 < fst (snd f) /\ length (snd (snd f)) = ncols /\
                   Forall (fun c => length c = fst (snd f)) (snd (snd f))) frames) by (destruct Hfr; auto).
  (* groups in the order of their names *)
  assert (M : exists sframes css, (forall f, In f sframes <-> In f frames) /\
     StronglySorted before (map (fun f => [calc_name (fst f)]) sframes) /\
     Forall2 (fun f cs => summary_df py3 (fst (snd f)) (snd (snd f)) tv rm = Ok cs) sframes css /\
     exists vs bs, find_calc CValues groups = Ok vs /\ find_calc CBsStd groups = Ok bs /\
     forall first i1 (i2 : option (list imp)), (first = [] \/ exists t, first = [t]) -> (rm = true <-> i2 <> None) ->
       forall X, X = concat (map2 (fun f cs => group_rows rm (calc_name (fst f)) cs) sframes css) ++
                     map (fun t => (["true values"; "value"], t)) first ->
       get_row strings_eqb ["values std"; "value"] X = Ok (map s_std vs) /\
       get_row strings_eqb ["values std"; "uncertainty"] X = Ok (map s_std_unc vs) /\
       get_row strings_eqb ["bootstrap std mean"; "value"] X = Ok (map s_mean bs) /\
       get_row strings_eqb ["bootstrap std mean"; "uncertainty"] X = Ok (map s_mean_unc bs) /\
       let set c r f (i : list imp) d := set_row strings_eqb [c; r] (map f i) d in
       let df1 := set "implementation std frac" "uncertainty" imp_frac_u i1
            (set "implementation std frac" "value" imp_frac i1
            (set "implementation std" "uncertainty" imp_std_u i1
            (set "implementation std" "value" imp_std i1 X))) in
       existsb (fun p => String.eqb (calc_of p) "values rmse") df1 = rm /\
       (rm = true -> get_row strings_eqb ["values rmse"; "value"] df1 = Ok (map (fun c => fst (get_rmse c)) vs) /\
          get_row strings_eqb ["values rmse"; "uncertainty"] df1 = Ok (map (fun c => snd (get_rmse c)) vs) /\
          get_row strings_eqb ["bootstrap std mean"; "value"] df1 = Ok (map s_mean bs) /\
          get_row strings_eqb ["bootstrap std mean"; "uncertainty"] df1 = Ok (map s_mean_unc bs)) /\
       chosen (match i2 with
               | Some i => set "implementation rmse frac" "uncertainty" imp_frac_u i
                  (set "implementation rmse frac" "value" imp_frac i
                  (set "implementation rmse" "uncertainty" imp_std_u i
                  (set "implementation rmse" "value" imp_std i df1)))
               | None => df1 end) = error_table first (mkErr groups i1 i2)).
  { clear H Hne Hall Hd. destruct Hfr as [v b t d Ht Hd _].
    destruct Ht as [->|(x & ->)]; destruct Hd as [->|(y1 & y2 & y3 & ->)]; cbn [app] in *;
    repeat match goal with
           | K : Forall2 _ (_ :: _) _ |- _ => inversion_clear K
           | K : Forall2 _ [] _ |- _ => inversion_clear K
           end;
    repeat match goal with
           | K : match ?v with _ => _ end = Ok _ |- _ => is_var v; destruct v as (? & ?)
           end;
    repeat match goal with
           | K : (let! s := ?X in _) = Ok _ |- _ =>
               let cs := fresh "cs" in let Ecs := fresh "Ecs" in
               destruct X as [cs|] eqn:Ecs; [|discriminate K]; cbn [rbind] in K; injection K as <-
           end.
    all: match goal with
    | |- context [In _ [(CValues, ?v); (CBsStd, ?b)]] => match goal with
      |- context [find_calc CValues [(CValues, ?cv); (CBsStd, ?cb)]] =>
         table_case [(CBsStd, b); (CValues, v)] [cb; cv] cv cb end
    | |- context [In _ [(CValues, ?v); (CBsStd, ?b); (CThreadKs, ?t)]] => match goal with
      |- context [find_calc CValues [(CValues, ?cv); (CBsStd, ?cb); (CThreadKs, ?ct)]] =>
         table_case [(CBsStd, b); (CThreadKs, t); (CValues, v)] [cb; ct; cv] cv cb end
    | |- context [In _ [(CValues, ?v); (CBsStd, ?b); (CBsDist 1, ?d1); (CBsDist 2, ?d2); (CBsDist 3, ?d3)]] => match goal with
      |- context [find_calc CValues [(CValues, ?cv); (CBsStd, ?cb); (_, ?c1); (_, ?c2); (_, ?c3)]] =>
         table_case [(CBsDist 2, d2); (CBsDist 3, d3); (CBsDist 1, d1); (CBsStd, b); (CValues, v)] [c2; c3; c1; cb; cv] cv cb end
    | |- context [In _ [(CValues, ?v); (CBsStd, ?b); (CThreadKs, ?t); (CBsDist 1, ?d1); (CBsDist 2, ?d2); (CBsDist 3, ?d3)]] => match goal with
      |- context [find_calc CValues [(CValues, ?cv); (CBsStd, ?cb); (_, ?ct); (_, ?c1); (_, ?c2); (_, ?c3)]] =>
         table_case [(CBsDist 2, d2); (CBsDist 3, d3); (CBsDist 1, d1); (CBsStd, b); (CThreadKs, t); (CValues, v)]
                    [c2; c3; c1; cb; ct; cv] cv cb end
    end. }
  destruct M as (sf & css & M1 & M2 & M3 & vs & bs & Fv & Fb & M4).
  rewrite (multi_ok py3 runs ncols frames sf css tv it rm) by auto. clear Eg Hd Hne Hall M1 M2 M3 Hfr.
  set (Y := concat (map2 (fun f cs => group_rows rm (calc_name (fst f)) cs) sf css)) in *. clearbody Y.
  unfold wbind at 1, wlift at 1 in H. rewrite Fv in H. unfold wbind at 1, wlift at 1 in H. rewrite Fb in H.
  clear Fv Fb. unfold wbind at 1 in H.
  destruct (implementation_std norm (map s_std vs) (map s_std_unc vs) (map s_mean bs) (map s_mean_unc bs) nsim (BInt 0) w)
    as [[i1|] w1] eqn:E1; [|discriminate].
  assert (K : exists i2, s = mkErr groups i1 i2 /\ (rm = true <-> i2 <> None) /\
    (rm = false -> w1 = w') /\
    (rm = true -> exists i, i2 = Some i /\ implementation_std norm (map (fun c => fst (get_rmse c)) vs) (map (fun c => snd (get_rmse c)) vs)
         (map s_mean bs) (map s_mean_unc bs) nsim (BInt 0) w1 = (Ok i, w'))).
  { destruct rm.
    - unfold wbind at 1 in H. cbv zeta in H. unfold wbind at 1 in H.
      assert (Q1 : map (fun s => match s_rmse s with Some p => fst p | None => None end) vs = map (fun c => fst (get_rmse c)) vs).
      { apply map_ext. intros a. unfold get_rmse. destruct (s_rmse a); auto. }
      assert (Q2 : map (fun s => match s_rmse s with Some p => snd p | None => None end) vs = map (fun c => snd (get_rmse c)) vs).
      { apply map_ext. intros a. unfold get_rmse. destruct (s_rmse a); auto. }
      rewrite Q1, Q2 in H. destruct (implementation_std _ (map (fun c => fst (get_rmse c)) vs) _ _ _ _ _ w1) as [[i|] w2] eqn:E2; [|discriminate].
      cbn in H. injection H as <- <-. exists (Some i). split; auto. split; [split; auto; discriminate|]. split; [discriminate|]. eauto.
    - cbn in H. injection H as <- <-. exists None. split; auto. split; [split; [discriminate|congruence]|]. split; auto. discriminate. }
  clear H. destruct K as (i2 & -> & Ki & Kf & Kt). split; [exact Ki|]. split.
  - intros -> ->. reflexivity.
  - intros Hit. set (first := if it then match tv with Some t => [t] | None => [] end else []).
    exists first. split.
    + assert (Hfi : first = [] \/ exists t, first = [t]) by (unfold first; destruct it; [destruct tv|]; eauto).
      specialize (M4 first i1 i2 Hfi Ki _ eq_refl). cbv zeta in M4.
      set (X := Y ++ map (fun t => (["true values"; "value"], t)) first) in *.
      assert (EX : with_true it tv Y = Ok X).
      { unfold with_true, X, first. destruct it; [destruct tv; [auto|exfalso; apply Hit; auto]|]. cbn. rewrite app_nil_r. auto. }
      rewrite EX. clearbody X. clear EX. destruct M4 as (G1 & G2 & G3 & G4 & G5 & G6 & G7).
      unfold wbind at 1, wlift at 1. cbv zeta. unfold wbind at 1, wlift at 1. rewrite G1. unfold wbind at 1, wlift at 1. rewrite G2.
      unfold wbind at 1, wlift at 1. rewrite G3. unfold wbind at 1, wlift at 1. rewrite G4. unfold wbind at 1. rewrite E1.
      unfold wbind at 1. rewrite G5. destruct rm.
      * destruct (G6 eq_refl) as (R1 & R2 & R3 & R4). destruct (Kt eq_refl) as (i & -> & E2).
        unfold wbind at 1, wlift at 1. rewrite R1. unfold wbind at 1, wlift at 1. rewrite R2.
        unfold wbind at 1, wlift at 1. rewrite R3. unfold wbind at 1, wlift at 1. rewrite R4. unfold wbind at 1. rewrite E2.
        unfold wret. unfold chosen in G7. rewrite G7. reflexivity.
      * destruct i2; [destruct Ki as [_ Ki]; discriminate Ki; discriminate|]. unfold wret. unfold chosen in G7. rewrite G7, (Kf eq_refl). reflexivity.
    + unfold first. split; intros ->; auto. destruct tv; [eauto|exfalso; apply Hit; auto].
Qed.
Print Assumptions C86_error_table.

