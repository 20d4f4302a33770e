(** C56 (table of efficiency gains); the error summary succeeds (C43). *)
From Coq Require Import Lra ListDec.
From Verif Require Import Base ModelRun ModelBoot ModelParallel ModelReal ModelStats Envs
     Spec SpecRun SpecReal ProofBase ProofMonad ProofDet ProofRun ProofBoot
     ProofReal ProofInterp ProofParallel ProofStats PropParallel PropEstimators PropErrors PropSummary.
Local Open Scope R_scope.

(** ** C56: efficiency_gain_df *)

Lemma nth_error_map2 : forall A B C (f : A -> B -> C) la lb i a b,
    nth_error la i = Some a -> nth_error lb i = Some b -> nth_error (map2 f la lb) i = Some (f a b).
Proof.
  unfold map2. induction la as [|x la IH]; intros [|y lb] [|i] a b Ha Hb; cbn in *; try discriminate.
  - injection Ha as ->. injection Hb as ->. auto.
  - apply IH; auto.
Qed.

Section Gain.
Variables (py3 : bool) (nest : nat) (tv : option (list fl)) (rm : bool) (adj : option (list fl)) (base_name : Z).
Definition adjust_of (i : nat) : fl :=
  match adj with Some a => fdiv (nth 0 a None) (nth i a None) | None => Some 1 end.
Definition gain_step (d : list (Z * method_rows)) (x : nat * (Z * list (list fl))) : res (list (Z * method_rows)) :=
  let '(i, (name, values)) := x in
  let! s := summary_df_from_list py3 values nest tv rm in
  let! rows :=
    if (i =? 0)%nat then Ok (mkMeth s None None)
    else
      let! base := dict_get base_name d in
      Ok (mkMeth s (Some (gains (fun c => (s_std c, s_std_unc c)) (adjust_of i) (m_sum base) s))
                 (if rm then Some (gains get_rmse (adjust_of i) (m_sum base) s) else None)) in
  Ok (dict_set name rows d).
Definition good_entry (base : list colsum) (i : nat) (values : list (list fl)) (rows : method_rows) : Prop :=
  summary_df_from_list py3 values nest tv rm = Ok (m_sum rows) /\
  (i = 0%nat -> m_gain rows = None /\ m_gain_rmse rows = None) /\
  (i <> 0%nat -> m_gain rows = Some (gains (fun c => (s_std c, s_std_unc c)) (adjust_of i) base (m_sum rows)) /\
                 m_gain_rmse rows = if rm then Some (gains get_rmse (adjust_of i) base (m_sum rows)) else None).

Lemma dict_set_fresh : forall A k (v : A) d, ~ In k (map fst d) -> dict_set k v d = d ++ [(k, v)].
Proof.
  induction d as [|(k' & v') d IH]; intros H; auto. cbn [dict_set map fst In] in *.
  destruct (Z.eqb_spec k k'); [subst; tauto|]. rewrite IH by tauto. auto.
Qed.

(** After the first method. *)
Lemma gain_loop : forall ns ms d0 base out, length ns = length ms ->
    d0 <> [] -> hd_error d0 = Some (base_name, base) -> NoDup (map fst d0 ++ ns) ->
    foldM gain_step (combine (seq (length d0) (length ns)) (combine ns ms)) d0 = Ok out ->
    exists rs, out = d0 ++ combine ns rs /\ length rs = length ns /\
      forall i r v, nth_error rs i = Some r -> nth_error ms i = Some v ->
                    good_entry (m_sum base) (length d0 + i) v r.
Proof.
  induction ns as [|name ns IH]; intros [|v ms] d0 base out Hl Hd Hh Hn H; try discriminate.
  - cbn in H. injection H as <-. exists []. rewrite app_nil_r. repeat split; auto; destruct i; discriminate.
  - cbn [length seq combine foldM] in H. unfold gain_step at 1 in H.
    destruct (summary_df_from_list py3 v nest tv rm) as [s|] eqn:Hs; [|discriminate]. cbn [rbind] in H.
    destruct (Nat.eqb_spec (length d0) 0) as [H0|H0]; [destruct d0; [congruence|discriminate]|].
    assert (Hg : dict_get base_name d0 = Ok base).
    { destruct d0 as [|(k & b) d0]; [congruence|]. cbn in Hh. injection Hh as -> ->. cbn [dict_get].
      rewrite Z.eqb_refl. auto. }
    rewrite Hg in H. cbn [rbind] in H.
    assert (Hf : ~ In name (map fst d0)).
    { intros Hi. apply NoDup_remove_2 in Hn. apply Hn, in_or_app. left. auto. }
    rewrite dict_set_fresh in H by auto. set (r := mkMeth _ _ _) in *.
    specialize (IH ms (d0 ++ [(name, r)]) base out).
    rewrite app_length in IH. cbn [length] in IH. rewrite Nat.add_1_r in IH.
    destruct IH as (rs & -> & Hlr & Hrs); auto.
    + intros He. apply app_eq_nil in He as (_ & ?). discriminate.
    + destruct d0; [congruence|auto].
    + rewrite map_app, <- app_assoc. auto.
    + exists (r :: rs). rewrite <- app_assoc. split; auto. split; [cbn; lia|].
      intros [|i] r' v' Hr Hv; cbn [nth_error] in Hr, Hv.
      * injection Hr as <-. injection Hv as <-. rewrite Nat.add_0_r. split; auto. split; [tauto|].
        intros _. split; auto.
      * rewrite Nat.add_succ_r, <- Nat.add_succ_l. apply Hrs; auto.
Qed.
End Gain.

Lemma gain_table : forall py3 names methods nest tv rm adj out,
    efficiency_gain_df py3 names methods nest tv rm adj = Ok out ->
    NoDup (0%Z :: names) /\ length methods = length names /\ map fst out = names /\
    exists name0 base, hd_error out = Some (name0, base) /\
      forall i name rows v, nth_error out i = Some (name, rows) -> nth_error methods i = Some v ->
        good_entry py3 nest tv rm adj (m_sum base) i v rows.
Proof.
  intros py3 names methods nest tv rm adj out H. unfold efficiency_gain_df in H.
  destruct (assertb _); [|discriminate]. cbn [rbind] in H.
  destruct (Nat.eqb_spec (length names) (length methods)) as [Hl|]; [|discriminate]. cbn [assertb rbind] in H.
  match type of H with context [foldM ?f ?a ?b] =>
    change (foldM f a b) with (foldM (gain_step py3 nest tv rm adj (hd 0%Z names)) a b) in H;
    destruct (foldM (gain_step py3 nest tv rm adj (hd 0%Z names)) a b) as [d|] eqn:Hd end; [|discriminate].
  cbn [rbind] in H.
  destruct names as [|name0 ns]; [discriminate|].
  destruct (NoDup_dec Z.eq_dec (0%Z :: name0 :: ns)) as [Hn|]; [|discriminate].
  injection H as ->. split; auto. split; auto.
  destruct methods as [|v0 ms]; [discriminate|]. cbn [length seq combine foldM hd] in Hd. unfold gain_step at 1 in Hd.
  destruct (summary_df_from_list py3 v0 nest tv rm) as [s|] eqn:Hs; [|discriminate].
  cbn [rbind Nat.eqb dict_set] in Hd.
  destruct (gain_loop py3 nest tv rm adj name0 ns ms [(name0, mkMeth s None None)] (mkMeth s None None) out)
    as (rs & -> & Hlr & Hrs); auto; try discriminate.
  { apply NoDup_cons_iff in Hn. apply Hn. }
  split.
  { cbn. f_equal. clear - Hlr. revert rs Hlr. induction ns; intros [|r rs] H; try discriminate; auto. cbn. f_equal. auto. }
  exists name0, (mkMeth s None None). split; auto.
  intros [|i] name rows v Hi Hv; cbn [nth_error app] in Hi, Hv.
  - injection Hi as <- <-. injection Hv as <-. split; auto. split; auto. congruence.
  - assert (Hri : nth_error rs i = Some rows).
    { clear - Hi. revert rs i Hi. induction ns as [|x ns IH]; intros [|r rs] [|i] Hi; cbn in *; try discriminate.
      - injection Hi as _ <-. auto.
      - auto. }
    specialize (Hrs i rows v Hri Hv). exact Hrs.
Qed.

(** The rows of the methods come in order, the names being distinct; the gain of
    a method is the ratio of the variances of the results of the first method
    and its own, times the ratio of the numbers of samples. *)
Theorem C56_efficiency_gain : forall names methods nest tv rm adj out,
    efficiency_gain_df true names methods nest tv rm adj = Ok out ->
    NoDup names /\ map fst out = names /\
    forall i j v0 v a rows xs0 xs, (0 < i)%nat ->
      nth_error methods 0 = Some v0 -> nth_error methods i = Some v ->
      option_map snd (nth_error out i) = Some rows -> (j < nest)%nat ->
      (forall l, adj = Some l ->
         exists n0 ni, nth 0 l None = Some n0 /\ nth i l None = Some ni /\ ni <> 0 /\ a = n0 / ni) ->
      (adj = None -> a = 1) ->
      map (fun arr => nth j arr None) v0 = map Some xs0 -> map (fun arr => nth j arr None) v = map Some xs ->
      (2 <= length xs0)%nat -> (2 <= length xs)%nat -> variance xs0 <> 0 -> variance xs <> 0 ->
      exists g u gs, m_gain rows = Some gs /\ nth_error gs j = Some (Some g, Some u) /\
        g = a * variance xs0 / variance xs /\
        u = 2 * g * sqrt (1 / (2 * (INR (length xs0) - 1)) + 1 / (2 * (INR (length xs) - 1))).
Proof.
  intros names methods nest tv rm adj out H.
  destruct (gain_table _ _ _ _ _ _ _ _ H) as (Hn & Hl & Hf & name0 & base & Hb & He).
  split; [apply NoDup_cons_iff in Hn; apply Hn|]. split; auto.
  intros i j v0 v a rows xs0 xs Hi Hv0 Hv Hr Hj Ha Ha1 Hx0 Hx Hl0 Hlx Hvar0 Hvar.
  destruct (nth_error out i) as [(name & rows')|] eqn:Ho; [|discriminate]. cbn in Hr. injection Hr as ->.
  destruct (He i name rows v Ho Hv) as (Hs & _ & Hg). destruct Hg as (Hg & _); [lia|].
  assert (Ho0 : nth_error out 0 = Some (name0, base)) by (destruct out; auto).
  destruct (He 0%nat name0 base v0 Ho0 Hv0) as (Hs0 & _ & _).
  assert (Hsum : forall v xs c, summary_df_from_list true v nest tv rm = Ok c ->
      map (fun arr => nth j arr None) v = map Some xs -> (2 <= length xs)%nat -> variance xs <> 0 ->
      exists s sd, nth_error c j = Some s /\ s_std s = Some sd /\ 0 < sd /\ sd ^ 2 = variance xs /\
                   s_std_unc s = Some (sd / sqrt (2 * (INR (length xs) - 1)))).
  { clear - Hj. intros v xs c Hc Hx Hl Hv. unfold summary_df_from_list in Hc.
    destruct (mapM _ v); [|discriminate]. cbn [rbind] in Hc.
    assert (Hlv : length v = length xs).
    { apply (f_equal (@length _)) in Hx. rewrite !map_length in Hx. auto. }
    destruct v as [|v1 v]; [cbn in Hlv; lia|]. rewrite Hlv in Hc.
    destruct (C57_summary _ _ _ _ _ Hl Hc) as (Hlc & Hcol).
    set (vs := v1 :: v) in *. rewrite rows_of_length in Hlc.
    destruct (nth_error c j) as [s|] eqn:Hs; [|apply nth_error_None in Hs; lia].
    destruct (Hcol j (nth_row vs j) s xs 0%nat) as (sd & _ & H2 & H3 & H4 & _ & H6 & _); auto.
    - apply nth_rows_of. auto.
    - unfold nth_row. rewrite map_length. auto.
    - unfold nth_row. rewrite Hx. cbn [repeat]. rewrite app_nil_r. auto.
    - exists s, sd. split; auto. split; auto. split; [|auto].
      destruct H3 as [H3|H3]; auto. exfalso. apply Hv. rewrite <- H4, <- H3. ring. }
  destruct (Hsum v0 xs0 _ Hs0 Hx0 Hl0 Hvar0) as (s0 & sd0 & K1 & K2 & K3 & K4 & K5).
  destruct (Hsum v xs _ Hs Hx Hlx Hvar) as (s1 & sd1 & M1 & M2 & M3 & M4 & M5).
  assert (Hadj : adjust_of adj i = Some a).
  { unfold adjust_of. destruct adj as [l|]; [|rewrite Ha1; auto].
    destruct (Ha l eq_refl) as (n0 & ni & -> & -> & Hni & ->). cbn [fdiv].
    destruct (Req_EM_T ni 0); [congruence|auto]. }
  destruct (C56_eff_gain sd0 (sd0 / sqrt (2 * (INR (length xs0) - 1))) sd1 (sd1 / sqrt (2 * (INR (length xs) - 1))) a)
    as (g & u & G1 & G2 & G3); try lra.
  exists g, u. eexists. split; [exact Hg|]. split; [|split].
  - unfold gains. rewrite Hadj. rewrite nth_error_map2 with (a := s0) (b := s1) by auto. cbn [fst snd].
    rewrite K2, K5, M2, M5, G1. auto.
  - rewrite G2, <- K4, <- M4. field. lra.
  - rewrite G3. f_equal. f_equal.
    assert (Hsq : forall n, (2 <= n)%nat -> forall sd, 0 < sd ->
        (sd / sqrt (2 * (INR n - 1)) / sd) ^ 2 = 1 / (2 * (INR n - 1))).
    { intros n Hn2 sd Hsd. assert (2 <= INR n) by (change 2 with (INR 2); apply le_INR; auto).
      assert (0 < sqrt (2 * (INR n - 1))) by (apply sqrt_lt_R0; lra).
      replace (sd / sqrt (2 * (INR n - 1)) / sd) with (/ sqrt (2 * (INR n - 1))) by (field; lra).
      rewrite pow_inv, pow2_sqrt by lra. unfold Rdiv. ring. }
    rewrite !Hsq by auto. auto.
Qed.
Print Assumptions C56_efficiency_gain.

Example C56_example : exists out,
    efficiency_gain_df true [1; 2]%Z [[[Some 1]; [Some 3]]; [[Some 2]; [Some 5]]] 1 None false
                       (Some [Some 10; Some 20]) = Ok out /\
    variance [1; 3] <> 0 /\ variance [2; 5] <> 0.
Proof.
  eexists. split; [|split].
  - unfold efficiency_gain_df. cbn [length Nat.eqb assertb rbind hd combine seq foldM].
    cbn -[NoDup_dec summary_column gains]. destruct (NoDup_dec Z.eq_dec [0; 1; 2]%Z) as [|Hn]; [reflexivity|].
    exfalso. apply Hn. repeat constructor; cbn; intuition; discriminate.
  - unfold variance, mean, sumR. cbn. lra.
  - unfold variance, mean, sumR. cbn. lra.
Qed.

(** ** C43: the error summary fails only if one of its estimates does, or if
    there are less than two runs. *)

Definition unc_ok (u : fl) : Prop := match u with Some x => 0 <= x | None => True end.
Lemma std_nonneg : forall l, unc_ok (std_of l).
Proof. intros l. unfold std_of. destruct (length l <=? 1)%nat; cbn; auto. apply sqrt_pos. Qed.
Lemma summary_column_unc : forall py3 n f t col, std_unc_factor py3 n = Ok f ->
    unc_ok (s_mean_unc (summary_column f t col)) /\ unc_ok (s_std_unc (summary_column f t col)).
Proof.
  intros py3 n f t col Hf. unfold summary_column. cbn [s_mean_unc s_std_unc]. unfold pd_std.
  pose proof (std_nonneg (finite_part col)) as Hs. destruct (std_of (finite_part col)) as [s|]; cbn; auto. cbn in Hs. split.
  - destruct (Req_EM_T _ 0) as [|He]; cbn; auto. apply Rmult_le_pos; auto. apply Rlt_le, Rinv_0_lt_compat.
    pose proof (sqrt_pos (INR (length col))). lra.
  - destruct n as [|[|n]]; [injection Hf as <-; cbn; auto|discriminate|]. injection Hf as <-. cbn -[INR].
    destruct py3; [apply Rmult_le_pos; auto; apply sqrt_pos|lra].
Qed.
Lemma rmse_unc_ok : forall col t, unc_ok (snd (rmse_and_unc col t)).
Proof.
  intros col t. unfold rmse_and_unc. cbn [snd]. set (sq := map _ _).
  unfold np_std, np_mean. destruct (all_finite sq) as [xs|]; cbn; auto.
  unfold mean_of. destruct xs as [|x xs]; cbn -[sqrt rsum INR std_of]; auto.
  pose proof (std_nonneg (x :: xs)) as Hs. destruct (Req_EM_T (sqrt _) 0) as [|H1]; cbn -[sqrt rsum INR std_of]; auto.
  destruct (std_of (x :: xs)) as [s|]; cbn -[sqrt rsum INR]; auto. cbn in Hs.
  destruct (Req_EM_T (sqrt (INR _)) 0) as [|H2]; cbn -[sqrt rsum INR]; auto.
  pose proof (sqrt_pos (INR (length col))). pose proof (sqrt_pos (rsum (x :: xs) / INR (length (x :: xs)))).
  assert (forall a, 0 <= a -> a <> 0 -> 0 <= / a) as Hi.
  { intros a Ha Hn. apply Rlt_le, Rinv_0_lt_compat. lra. }
  apply Rmult_le_pos.
  - apply Rmult_le_pos; [lra|]. unfold Rdiv. rewrite Rmult_1_l. apply Hi; auto.
  - apply Rmult_le_pos; auto.
Qed.
Lemma implementation_std_ok : forall E (norm : normals E) v vu s su n z (w : world E), (0 <= z < 4294967296)%Z ->
    length vu = length v -> length s = length v -> length su = length v ->
    Forall unc_ok vu -> Forall unc_ok su ->
    exists out w', implementation_std norm v vu s su n (BInt z) w = (Ok out, w').
Proof.
  intros E norm v vu s su n z w Hz H1 H2 H3 F1 F2. unfold implementation_std. rewrite H1, H2, H3, Nat.eqb_refl. cbn [andb].
  clear H1 H2 H3.
  assert (F : Forall (fun p : (fl * fl) * (fl * fl) => unc_ok (snd (fst p)) /\ unc_ok (snd (snd p)))
                     (combine (combine v vu) (combine s su))).
  { apply Forall_forall. intros ((a & b) & (c & d)) Hin. cbn [fst snd]. split.
    - apply in_combine_l, in_combine_r in Hin. rewrite Forall_forall in F1. auto.
    - apply in_combine_r, in_combine_r in Hin. rewrite Forall_forall in F2. auto. }
  revert w F. generalize (combine (combine v vu) (combine s su)). clear - Hz. intros q.
  induction q as [|((a & b) & (c & d)) q IH]; intros w F.
  - exists [], w. reflexivity.
  - apply Forall_cons_iff in F as ((Hb & Hd) & F). cbn [fst snd] in *. cbn [wmapM].
    assert (Hn : forall mu u, unc_ok u -> forall w : world E, exists l w', normal norm mu u n w = (Ok l, w')).
    { intros mu u Hu w0. unfold normal. destruct u as [u|].
      - cbn in Hu. destruct (Rlt_dec u 0); [lra|]. destruct (norm mu (Some u) n (w_rng w0)). eauto.
      - destruct (norm mu None n (w_rng w0)). eauto. }
    assert (H1 : exists r w', imp_one norm n (BInt z) a b c d w = (Ok r, w')).
    { unfold imp_one. unfold wbind at 1, get_state.
      rewrite (wbind_run _ _ _ _ _ _ _ _ (seed_run E z w Hz : apply_seed (BInt z) w = _)).
      destruct (Hn a b Hb (mkW (r_seed E z) (w_warn w))) as (l1 & w1 & H1). rewrite (wbind_run _ _ _ _ _ _ _ _ H1).
      destruct (Hn c d Hd w1) as (l2 & w2 & H2). rewrite (wbind_run _ _ _ _ _ _ _ _ H2). unfold wbind, set_state, wret. eauto. }
    destruct H1 as (r & w1 & H1). unfold wbind. rewrite H1. destruct (IH w1 F) as (out & w2 & H2). rewrite H2. unfold wret. eauto.
Qed.

Lemma summary_df_ok : forall py3 n cols tv rm, (2 <= n)%nat ->
    (forall t, tv = Some t -> length t = length cols) -> (rm = true -> tv <> None) ->
    exists s, summary_df py3 n cols tv rm = Ok s /\ length s = length cols /\
      Forall (fun c => unc_ok (s_mean_unc c) /\ unc_ok (s_std_unc c) /\
                       match s_rmse c with Some p => unc_ok (snd p) | None => True end) s.
Proof.
  intros py3 n cols tv rm Hn Ht Hr. unfold summary_df.
  assert (Ha : assertb match tv with Some t => (length t =? length cols)%nat | None => true end = Ok tt).
  { destruct tv as [t|]; auto. rewrite (Ht t) by auto. rewrite Nat.eqb_refl. auto. }
  rewrite Ha. cbn [rbind].
  destruct (std_unc_factor py3 n) as [f|] eqn:Hf; [|destruct n as [|[|n]]; try lia; discriminate]. cbn [rbind].
  assert (Hc : forall t c, let s := summary_column f t c in unc_ok (s_mean_unc s) /\ unc_ok (s_std_unc s) /\
                       match s_rmse s with Some p => unc_ok (snd p) | None => True end).
  { intros t c s. destruct (summary_column_unc py3 n f t c Hf). split; [auto|split; auto]. unfold s, summary_column.
    cbn [s_rmse]. destruct t; cbn [option_map]; auto. apply rmse_unc_ok. }
  destruct rm.
  - destruct tv as [t|]; [|exfalso; apply Hr; auto]. eexists. split; [reflexivity|]. split.
    + rewrite map2_length, (Ht t) by auto. apply Nat.min_id.
    + apply Forall_forall. intros s Hs. apply in_map_iff in Hs as ((x & c) & <- & _). apply Hc.
  - eexists. split; [reflexivity|]. split; [apply map_length|].
    apply Forall_forall. intros s Hs. apply in_map_iff in Hs as (c & <- & _). apply Hc.
Qed.

(** With [n] >= 2 runs, and >= 3 for pairwise diagnostics, the summary of all
    values which could be computed succeeds. *)
Theorem C43_summary_ok : forall E (norm : normals E) py3 srt dist l n tp bsd tv rm runs p1 p2 p3 (w : world E) frames,
    Forall (fun p => schedules p (length runs)) [p1; p2; p3] ->
    fst (run_list_error_values p1 p2 p3 srt dist l n tp bsd runs w) = Ok frames ->
    (2 <= length runs)%nat -> (tp = true \/ bsd = true -> (3 <= length runs)%nat) ->
    (forall t, tv = Some t -> length t = length l) -> (rm = true -> tv <> None) ->
    exists s, fst (run_list_error_summary norm py3 p1 p2 p3 srt dist l n tp bsd tv rm runs w) = Ok s.
Proof.
  intros E norm py3 srt dist l n tp bsd tv rm runs p1 p2 p3 w frames Hp Hf H2 H3 Ht Hr.
  rewrite summary_fst. rewrite Hf. cbn [rbind].
  set (gb := fun r => fst (run_bootstrap_values srt r l false true n (default_seeds n) w)).
  set (gt := fun r => fst (run_thread_values (gv srt l) r w)).
  rewrite (run_list_pure srt dist l n gb gt) in Hf
    by (intros; first [apply det_value, det_bootstrap_values|apply det_value, det_thread_values]).
  unfold pure_frames in Hf.
  assert (Hlen : forall A B (g : A -> res B) xs o v, mapM (at_index g xs) o = Ok v -> length v = length o).
  { clear. intros A B g xs o. induction o as [|i o IH]; intros v H; cbn [mapM] in H.
    - injection H as <-. auto.
    - destruct (at_index g xs i); [|discriminate]. cbn [rbind] in H. destruct (mapM _ o); [|discriminate].
      injection H as <-. cbn. f_equal. auto. }
  rewrite Forall_forall in Hp.
  assert (Ho : forall p, In p [p1; p2; p3] -> length (order_of p (length runs)) = length runs).
  { intros p Hin. specialize (Hp p Hin). destruct p as [p|]; cbn in *.
    - apply Permutation_length in Hp. rewrite seq_length in Hp. auto.
    - apply seq_length. }
  destruct (pure_base _ _ _ _ _ _) as [(v & b)|] eqn:Hb; [|discriminate]. cbn [rbind fst snd] in Hf.
  assert (Hvb : length v = length runs /\ length b = length runs).
  { unfold pure_base in Hb. destruct (mapM (at_index (gv srt l) _) _) as [v0|] eqn:Hv0; [|discriminate]. cbn [rbind] in Hb.
    destruct (nonempty ValueError v0) as [v1|] eqn:Hv1; [|discriminate]. cbn [rbind] in Hb. apply nonempty_ok in Hv1 as (-> & _).
    destruct (mapM (at_index gb _) _) as [b0|] eqn:Hb0; [|discriminate]. cbn [rbind] in Hb.
    destruct (nonempty KeyError b0) as [b1|] eqn:Hb1; [|discriminate]. cbn [rbind] in Hb. apply nonempty_ok in Hb1 as (-> & _).
    destruct (nonempty KeyError l); [|discriminate]. cbn [rbind] in Hb. injection Hb as <- <-.
    rewrite (Hlen _ _ _ _ _ _ Hv0), (Hlen _ _ _ _ _ _ Hb0), !Ho by (cbn; tauto). auto. }
  destruct Hvb as (Hlv & Hlb).
  assert (Hfr : exists rest, frames = (CValues, (length v, rows_of (length l) v)) ::
       (CBsStd, (length b, rows_of (length l) (map (map np_std) b))) :: rest /\
       (forall c k cols, In (c, (k, cols)) rest -> (2 <= k)%nat /\ length cols = length l)).
  { assert (Hnp : forall k, (3 <= k)%nat -> (2 <= npairs k)%nat).
    { intros k Hk. unfold npairs. apply Nat.div_le_lower_bound; nia. }
    assert (Hpc : forall A (d : A -> A -> list fl) k nest a t, length (pair_columns d k nest a t) = nest).
    { intros. unfold pair_columns. rewrite map_length, seq_length. auto. }
    destruct tp.
    - destruct (pure_threads gt runs _) as [t|] eqn:Htt; [|discriminate]. cbn [rbind] in Hf. injection Hf as <-.
      apply pure_threads_inv, Hlen in Htt. rewrite Ho in Htt by (cbn; tauto). unfold frames_of. rewrite map_length.
      eexists. split; [reflexivity|]. intros c k cols Hin. cbn [app In] in Hin. destruct Hin as [Hin|Hin].
      + injection Hin as <- <- <-. rewrite Hpc. split; auto. rewrite Htt. apply Hnp. auto.
      + destruct bsd; [|destruct Hin]. apply in_map_iff in Hin as (d & Hd & _). injection Hd as <- <- <-.
        rewrite Hpc. split; auto. rewrite Hlb. apply Hnp. auto.
    - cbn [rbind] in Hf. injection Hf as <-. unfold frames_of. rewrite map_length. eexists. split; [reflexivity|].
      intros c k cols Hin. cbn [app] in Hin. destruct bsd; [|destruct Hin].
      apply in_map_iff in Hin as (d & Hd & _). injection Hd as <- <- <-. rewrite Hpc. split; auto. rewrite Hlb. apply Hnp. auto. }
  destruct Hfr as (rest & -> & Hrest).
  unfold error_values_summary.
  destruct (summary_df_ok py3 (length v) (rows_of (length l) v) tv rm) as (s1 & S1 & L1 & F1); auto; [lia| |].
  { intros. rewrite rows_of_length. auto. }
  destruct (summary_df_ok py3 (length b) (rows_of (length l) (map (map np_std) b)) tv rm) as (s2 & S2 & L2 & F2); auto; [lia| |].
  { intros. rewrite rows_of_length. auto. }
  rewrite rows_of_length in L1, L2.
  assert (Hg : exists g, mapM (fun '(c, (n, cols)) => let! s := summary_df py3 n cols tv rm in Ok (c, s)) rest = Ok g).
  { clear - Hrest Ht Hr. induction rest as [|(c & k & cols) rest IH]; [eexists; reflexivity|]. cbn [mapM].
    destruct (Hrest c k cols (or_introl eq_refl)) as (Hk & Hc).
    destruct (summary_df_ok py3 k cols tv rm) as (s & -> & _); auto; [rewrite Hc; auto|]. cbn [rbind].
    destruct IH as (g & ->); [intros; eapply Hrest; right; eauto|]. eexists. reflexivity. }
  destruct Hg as (g & Hg).
  unfold wbind at 1, wlift at 1. cbn [mapM]. rewrite S1, S2. cbn [rbind]. rewrite Hg. cbn [rbind].
  unfold wbind at 1, wlift at 1. cbn [find_calc find fst snd]. unfold wbind at 1, wlift at 1. cbn [find_calc find fst snd].
  assert (U : forall f, (forall c, (unc_ok (s_mean_unc c) /\ unc_ok (s_std_unc c) /\
                       match s_rmse c with Some p => unc_ok (snd p) | None => True end) -> unc_ok (f c)) ->
              forall s, Forall (fun c => unc_ok (s_mean_unc c) /\ unc_ok (s_std_unc c) /\
                       match s_rmse c with Some p => unc_ok (snd p) | None => True end) s -> Forall unc_ok (map f s)).
  { intros f Hff s Hs. apply Forall_map. eapply Forall_impl; [|exact Hs]. auto. }
  destruct (implementation_std_ok E norm (map s_std s1) (map s_std_unc s1) (map s_mean s2) (map s_mean_unc s2)
              (Z.to_nat 1000000) 0 w) as (i1 & w1 & I1); rewrite ?map_length; try lia.
  { apply U; tauto. } { apply U; tauto. }
  unfold wbind at 1. rewrite I1.
  destruct rm.
  - unfold wbind at 1. unfold wbind at 1.
    match goal with |- context [implementation_std norm ?a ?b0 ?c ?d ?m (BInt 0) w1] =>
      destruct (implementation_std_ok E norm a b0 c d m 0 w1) as (i2 & w2 & I2); rewrite ?map_length; try lia end.
    { apply U; auto. intros c (_ & _ & Hc). destruct (s_rmse c); cbn; auto. } { apply U; tauto. }
    rewrite I2. eexists. reflexivity.
  - eexists. reflexivity.
Qed.
Print Assumptions C43_summary_ok.

Definition sched_210 : sched (script_env []) := @mkSched (script_env []) [2; 1; 0]%nat (fun _ => []).
Definition w_none : world (script_env []) := @mkW (script_env []) [] [].
Example C43_example : forall dist (norm : normals (script_env [])), exists s,
    Forall (fun p => schedules p 3) [None; Some sched_210; Some sched_210] /\
    fst (run_list_error_summary norm true None (Some sched_210) (Some sched_210) r_isort dist [CountSamples] 2 true true
           (Some [Some 3]) true [run_bs; run_bs; run_bs] w_none) = Ok s.
Proof.
  intros dist norm.
  assert (Hs : Forall (fun p => schedules p 3) [None; Some sched_210; Some sched_210]).
  { repeat constructor. all: cbn; change [0; 1; 2]%nat with (rev [2; 1; 0]%nat); apply Permutation_rev. }
  set (gb := fun r => fst (run_bootstrap_values r_isort r [CountSamples] false true 2 (default_seeds 2) w_none)).
  set (gt := fun r => fst (run_thread_values (gv r_isort [CountSamples]) r w_none)).
  assert (Hb : exists b, gb run_bs = Ok b) by (eexists; reflexivity).
  assert (Ht : exists a0 a1, gt run_bs = Ok [a0; a1]) by (do 2 eexists; reflexivity).
  assert (Hf : exists f, fst (run_list_error_values None (Some sched_210) (Some sched_210) r_isort dist [CountSamples]
                              2 true true [run_bs; run_bs; run_bs] w_none) = Ok f).
  { rewrite (run_list_pure r_isort dist [CountSamples] 2 gb gt)
      by (intros; first [apply det_value, det_bootstrap_values|apply det_value, det_thread_values]).
    unfold pure_frames, pure_base, pure_threads. destruct Hb as (b & Hb). destruct Ht as (a0 & a1 & Ht).
    cbn [length order_of seq s_order sched_210 mapM at_index nth_error]. rewrite Hb, Ht. cbn [rbind nonempty].
    cbn [gv run_estimators mapM]. eexists. reflexivity. }
  destruct Hf as (f & Hf).
  destruct (C43_summary_ok _ norm true r_isort dist [CountSamples] 2 true true (Some [Some 3]) true
              [run_bs; run_bs; run_bs] None (Some sched_210) (Some sched_210) w_none f Hs Hf) as (s & H).
  { apply Nat.leb_le. reflexivity. }
  { intros _. apply le_n. }
  { intros t Et. injection Et as <-. reflexivity. }
  { intros _. discriminate. }
  exists s. split; [exact Hs|exact H].
Qed.
