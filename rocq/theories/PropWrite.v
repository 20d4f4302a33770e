(** C73-C75: writing runs in PolyChord's format and reading them. *)
From Coq Require Import List String Ascii Bool ZArith Lia Reals Lra.
From Verif Require Import Base ModelRun ModelData ModelBoot ModelReal ModelStats ModelPlots ModelNames Envs
     ProofBase ProofMonad Spec SpecRun SpecReal ProofRun ProofRuns ProofJoin ProofBoot ProofProcess ProofDummy ProofMulti ProofReal PropWeights
     ProofNames ModelStatsFile ProofStatsFile PropStatsFile ModelWrite ProofWrite.
From Verif Require PropEstimators PropCombine PropBoot.
Import ListNotations.
Local Open Scope list_scope.
Local Open Scope Z_scope.

(** Files of a run. *)
Definition file_of (base root : text) (suffix : string) : text := path_join base root ++ la suffix.
Lemma file_neq : forall base root a b, la a <> la b -> file_of base root a <> file_of base root b.
Proof. intros base root a b H He. apply H. unfold file_of in He. eapply app_inv_head; eauto. Qed.
Lemma set_names : forall F (d : stats_in F) n m k z e ms es,
    let d1 := set_nequals m (set_nposterior n d) in
    (in_root d1 = in_root d /\ in_base d1 = in_base d /\ in_extra d1 = in_extra d) /\
    (in_root (set_ndead k d1) = in_root d /\ in_base (set_ndead k d1) = in_base d /\ in_extra (set_ndead k d1) = in_extra d) /\
    (in_root (set_means z e ms es (set_ndead k d1)) = in_root d /\ in_base (set_means z e ms es (set_ndead k d1)) = in_base d /\
     in_extra (set_means z e ms es (set_ndead k d1)) = in_extra d).
Proof. intros. cbn. auto. Qed.

Lemma run_out_inv : forall E F N (U : uniforms E) (toF : fl -> num F) srt r d o s (w : world E) od' s' w',
    write_run_output N U toF srt r (Some d) o s w = (Ok tt, (od', s'), w') ->
    exists root base d', in_root d = Some root /\ in_base d = Some base /\ od' = Some d' /\
      write_files N U toF srt r o (path_join base root) (d, s) w = (Ok tt, (d', s'), w').
Proof.
  intros E F N U toF srt r d o s w od' s' w' H. unfold write_run_output in H.
  destruct (in_root d) as [root|]; [|discriminate]. destruct (in_base d) as [base|]; [|discriminate].
  destruct (write_files N U toF srt r o (path_join base root) (d, s) w) as [[x [d' s1]] w1] eqn:Hw.
  inversion H; subst. exists root, base, d'. auto.
Qed.

Lemma estimators_length : forall srt r l sim v, run_estimators srt r l sim = Ok v -> length v = length l.
Proof.
  intros srt r l sim v H. unfold run_estimators in H. destruct (get_logw r sim) as [logw|e]; [|discriminate]. cbn [rbind] in H.
  revert v H. induction l as [|x t IH]; intros v H; cbn [mapM] in H.
  - inversion H. auto.
  - destruct (estimate srt x r (Some logw) None) as [y|e]; [|discriminate]. cbn [rbind] in H.
    destruct (mapM (fun e => estimate srt e r (Some logw) None) t) as [ys|e]; [|discriminate]. inversion H; subst.
    cbn [length]. rewrite (IH ys); auto.
Qed.
Lemma std_length : forall E srt r l ns fs n seeds (w : world E) v w',
    run_std_bootstrap srt r l ns fs n seeds w = (Ok v, w') -> length v = length l.
Proof.
  intros E srt r l ns fs n seeds w v w' H. unfold run_std_bootstrap, run_bootstrap_values in H.
  apply wbind_Ok in H as (rows & w1 & H & H1). apply wbind_Ok in H as (cols & w2 & H & H2).
  inversion H1; subst. rewrite map_length. inversion H2; subst. unfold rows_of.
  destruct fs; rewrite ?map_length, seq_length; auto.
Qed.

(** The samples of a run have the same number of parameters. *)
Definition rectangular (r : run) (k : nat) : Prop := forall t, In t (theta r) -> length t = k.

(** C73. A run written by write_run_output is read by process_polychord_run as
    the run with its numbers rounded to the precision of the format, if
    rounding keeps the order of the likelihoods. *)
Theorem C73_round_trip :
  forall E F N (U : uniforms E) (toF : fl -> num F) srt r labs tmm k d root base o s (w : world E) od' s' w' ps da dw (w2 : world E),
    complete_run r labs tmm -> settings r = None -> rectangular r k -> (2 <= length (logl r))%nat ->
    in_root d = Some root -> in_base d = Some base -> o_dead o = true ->
    (forall x, In x (logl r) -> o_init o < x) -> increasing_on (rnd N) (o_init o :: logl r) ->
    (ps = true -> o_stats o = true) ->
    write_run_output N U toF srt r (Some d) o s w = (Ok tt, (od', s'), w') ->
    exists d' r' labs' tmm' out w3, od' = Some d' /\
      read_polychord_run F N root base ps da dw s' w2 = (Ok (r', out), w3) /\ w_rng w3 = w_rng w2 /\
      logl r' = map (rnd N) (logl r) /\ theta r' = map (map (rnd N)) (theta r) /\
      nlive_array r' = nlive_array r /\ complete_run r' labs' tmm' /\
      (ps = false -> out = ONames root base) /\
      (ps = true -> exists so, out = OStats so /\ st_root so = root /\ st_base so = base /\
         st_ndead so = Z.of_nat (length (logl r)) /\
         st_nposterior so = Z.of_nat (if o_post o then length (logl r) else 0) /\
         in_nequals d' = Some (st_nequals so) /\
         (o_means o = true -> exists logZ means logZerr errs wa wb,
            run_estimators srt r (Logz :: map (fun i => ParamMean (Z.of_nat i) false) (seq 0 k)) None = Ok (logZ :: means) /\
            run_std_bootstrap srt r (Logz :: map (fun i => ParamMean (Z.of_nat i) false) (seq 0 k)) false true (o_nsim o)
                              (default_seeds (o_nsim o)) wa = (Ok (logZerr :: errs), wb) /\
            w_rng wb = w_rng w' /\
            st_logZ so = toF logZ /\ st_logZerr so = toF logZerr /\
            st_means so = Some (map toF means) /\ st_errs so = Some (map toF errs))).
Proof.
  intros E F N U toF srt r labs tmm k d root base o s w od' s' w' ps da dw w2 Hc Hset Hk Hlen Hroot Hbase Hdead Hi Hinc Hps H.
  apply run_out_inv in H as (root2 & base2 & d' & R1 & R2 & -> & H).
  assert (root2 = root) by congruence. assert (base2 = base) by congruence. subst root2 base2.
  destruct (write_inv _ _ _ _ _ _ _ _ _ _ _ _ _ _ _ H)
    as (out & w1 & w_rel & us & sel & s3 & w4 & values & stds & A1 & _ & A3 & A4 & A5 & A6 & A7 & A8 & A9).
  specialize (A1 Hdead). rewrite Hdead in A7.
  destruct (dead_birth_sound E r labs tmm (o_init o) false false w (complete_sound _ _ _ Hc) Hset Hi)
    as (out' & D1 & D2 & D3 & D4 & D5 & D6).
  rewrite A1 in D1. inversion D1; subst out' w1. clear D1.
  set (path := path_join base root) in *.
  assert (Hcon : consistent r labs tmm) by apply Hc.
  destruct Hcon as (_ & _ & V1 & V2 & V3 & V4 & _).
  assert (Hth : length (theta r) = length (logl r)) by congruence.
  assert (Hout : length out = length (logl r)) by (rewrite <- D4, map_length; auto).
  (* the file *)
  assert (F3 : s3 (path ++ la "_dead-birth.txt") = Some (savetxt N (map samp_row out))).
  { rewrite A7. assert (H0 : dead_store N path out s (path ++ la "_dead-birth.txt") = Some (savetxt N (map samp_row out))).
    { unfold dead_store. rewrite putf_other by (apply (file_neq base root); discriminate). apply putf_same. }
    assert (H1 : (if o_post o then putf (path ++ la ".txt") (post_text N w_rel r) (dead_store N path out s)
                  else dead_store N path out s) (path ++ la "_dead-birth.txt") = Some (savetxt N (map samp_row out))).
    { destruct (o_post o); auto. rewrite putf_other by (apply (file_neq base root); discriminate). auto. }
    destruct (o_equals o); auto. rewrite putf_other by (apply (file_neq base root); discriminate). auto. }
  assert (Hst : o_stats o = true -> exists ob, write_stats_file d' s3 = Ok (ob, s') /\
     in_root d' = Some root /\ in_base d' = Some base /\ in_extra d' = in_extra d).
  { intros Hs. destruct (A9 Hs) as (ob & B1 & B2 & _). exists ob. split; auto. rewrite B1. destruct (o_means o); cbn; auto. }
  assert (F4 : s' (path ++ la "_dead-birth.txt") = Some (savetxt N (map samp_row out))).
  { destruct (o_stats o) eqn:Hs.
    - destruct (Hst eq_refl) as (ob & B1 & B2 & B3 & B4).
      destruct (C50_written F d' s3) as [W1 W2].
      assert (Hex : in_extra d' = []).
      { destruct (in_extra d') eqn:He; auto. rewrite W2 in B1 by (right; right; congruence). discriminate. }
      destruct (W1 root base B2 B3 Hex) as (o2 & s4 & X1 & X2). rewrite B1 in X1. inversion X1; subst o2 s4.
      destruct X2 as (_ & _ & _ & _ & _ & _ & _ & _ & _ & _ & _ & _ & _ & _ & _ & _ & _ & X).
      rewrite X; auto. rewrite path_stats. apply (file_neq base root); discriminate.
    - destruct (A8 eq_refl) as (_ & -> & _). auto. }
  assert (Hrow : forall x, In x (map samp_row out) -> length x = (k + 2)%nat).
  { intros x Hx. apply in_map_iff in Hx as (y & <- & Hy). unfold samp_row. rewrite app_length. cbn [length].
    rewrite (Hk (s_theta y)); auto. rewrite <- D5. apply in_map. auto. }
  assert (Hnlen : (2 <= length out)%nat) by lia.
  assert (Htd : two_dims (map (map (rnd N)) (map samp_row out)) = true).
  { unfold two_dims. rewrite !map_length. destruct out as [|x0 t]; [cbn in Hnlen; lia|].
    cbn [map hd]. rewrite map_length, (Hrow (samp_row x0)) by (left; auto).
    apply andb_true_iff. split; apply Nat.ltb_lt; [auto|lia]. }
  assert (Hsorted : StronglySorted Z.le (map s_logl out)) by (rewrite D4; auto).
  rewrite <- D4 in Hinc.
  destruct (process_rounded E (rnd N) (o_init o) out da dw w2 D2 D3 Hsorted Hinc)
    as (r' & labs' & tmm' & w3 & P1 & P2 & P3 & P4 & P5 & P6 & P7 & P8 & P9).
  assert (Hn : nlive_array r' = nlive_array r).
  { apply nth_ext' with (d := 0); [congruence|]. intros i Hi2. rewrite P8 in Hi2. rewrite P9 by auto.
    destruct Hc as (_ & _ & _ & _ & Hc5). rewrite Hc5 by lia. f_equal. rewrite D4. apply D6. apply Hi, nth_In. lia. }
  assert (Hread : forall X (m : run -> W E X), 
     (let* r0 := process_samples_array (map samp_of_row (map (map (rnd N)) (map samp_row out))) da dw in m r0) w2 = m r' w3).
  { intros X m. replace (map samp_of_row (map (map (rnd N)) (map samp_row out))) with (map (round_samp (rnd N)) out).
    - rewrite (wbind_run _ _ _ _ _ _ _ _ P1). auto.
    - rewrite !map_map. apply map_ext. intros x. rewrite samp_row_of. auto. }
  assert (Hred : forall out0 w5,
    (if ps then match process_polychord_stats (F := F) root base s' with
                | Ok o0 => wret (r', OStats o0)
                | Raise e => if caught_stats e then let* _ := warn WStats in wret (r', ONames root base) else wraise e
                end else wret (r', ONames root base)) w3 = (Ok (r', out0), w5) ->
    read_polychord_run F N root base ps da dw s' w2 = (Ok (r', out0), w5)).
  { intros out0 w5 Hx. unfold read_polychord_run. fold path. rewrite F4.
    rewrite (load_save N (k + 2) (map samp_row out)) by (auto; lia).
    rewrite (wbind_run _ _ _ _ _ w2 _ w2) by reflexivity. rewrite Htd. cbn [negb]. rewrite Hread. exact Hx. }
  rewrite D4 in P3. rewrite D5 in P4.
  destruct ps.
  - specialize (Hps eq_refl). destruct (Hst Hps) as (ob & B1 & B2 & B3 & B4).
    destruct (C50_written F d' s3) as [W1 W2].
    assert (Hex : in_extra d' = []).
    { destruct (in_extra d') eqn:He; auto. rewrite W2 in B1 by (right; right; congruence). discriminate. }
    destruct (W1 root base B2 B3 Hex) as (o2 & s4 & X1 & X2). rewrite B1 in X1. inversion X1; subst o2 s4.
    destruct X2 as (Y1 & Y2 & Y3 & Y4 & _ & _ & _ & Y5 & Y6 & Y7 & _ & _ & _ & _ & Y8 & Y9 & _ & _).
    pose proof (C50_read F d' s3 ob s' B1) as Hr. rewrite Y1, Y2 in Hr.
    exists d', r', labs', tmm', (OStats (as_read ob)), w3. split; [auto|].
    split; [apply Hred; rewrite Hr; reflexivity|]. repeat (split; [solve [auto]|]). split; [discriminate|].
    intros _. exists (as_read ob). split; [auto|]. cbn [as_read st_root st_base st_ndead st_nposterior st_nequals st_logZ st_logZerr st_means st_errs].
    split; [auto|]. split; [auto|]. destruct (A9 Hps) as (ob' & B5 & B6 & B7 & B8).
    assert (Hd : in_ndead d' = Some (Z.of_nat (length (logl r))) /\
                 in_nposterior d' = Some (Z.of_nat (if o_post o then length (theta r) else 0%nat)) /\
                 exists ne, in_nequals d' = Some ne).
    { rewrite B5. destruct (o_means o); cbn; eauto. }
    destruct Hd as (E1 & E2 & ne & E3). apply Y7 in E1. apply Y5 in E2. pose proof (Y6 _ E3) as E4.
    split; [auto|]. split; [rewrite E2; destruct (o_post o); auto; rewrite Hth; auto|]. split; [rewrite E3, E4; auto|].
    intros Hm. rewrite Hm in B5. destruct (B7 Hm) as [B9 B10].
    assert (Hdim : stats_estimators r = Logz :: map (fun i => ParamMean (Z.of_nat i) false) (seq 0 k)).
    { unfold stats_estimators, ndim. do 3 f_equal. destruct (theta r) as [|t0 tt0] eqn:Ht; [cbn in Hth; lia|].
      apply Hk. rewrite Ht. left; auto. }
    pose proof (estimators_length _ _ _ _ _ B9) as L1. pose proof (std_length _ _ _ _ _ _ _ _ _ _ _ B10) as L2.
    rewrite Hdim in B9, B10, L1, L2. cbn [length] in L1, L2. rewrite map_length, seq_length in L1, L2.
    destruct values as [|z zs]; [discriminate|]. destruct stds as [|e es]; [discriminate|].
    exists z, zs, e, es, w4, w'. split; [auto|]. split; [auto|]. split; [auto|]. cbn [hd tl] in B5.
    rewrite B5 in Y3, Y4, Y8, Y9. cbn in Y3, Y4, Y8, Y9. rewrite (Y3 _ eq_refl), (Y4 _ eq_refl), (Y8 _ eq_refl), (Y9 _ eq_refl). cbn [dflt].
    injection L1 as L1. injection L2 as L2. rewrite !map_length, L1, L2, Nat.min_id.
    rewrite !firstn_all2 by (rewrite map_length; lia). auto.
  - exists d', r', labs', tmm', (ONames root base), w3. split; [auto|].
    split; [apply Hred; reflexivity|]. repeat (split; [solve [auto]|]). discriminate.
Qed.
Print Assumptions C73_round_trip.

(** What is written, and where.  Files and keys not named stay as they are, and
    numbers are drawn only for the file of equally weighted samples. *)
Theorem C73_effects : forall E F N (U : uniforms E) (toF : fl -> num F) srt r d o s (w : world E) od' s' w',
    write_run_output N U toF srt r (Some d) o s w = (Ok tt, (od', s'), w') ->
    exists root base d', in_root d = Some root /\ in_base d = Some base /\ od' = Some d' /\
      (forall q, (o_dead o = true -> q <> file_of base root "_dead-birth.txt" /\ q <> file_of base root "_dead.txt") ->
                 (o_post o = true -> q <> file_of base root ".txt") ->
                 (o_equals o = true -> q <> file_of base root "_equal_weights.txt") ->
                 (o_stats o = true -> q <> file_of base root ".stats") -> s' q = s q) /\
      in_root d' = in_root d /\ in_base d' = in_base d /\ in_extra d' = in_extra d /\
      in_logZs d' = in_logZs d /\ in_logZerrs d' = in_logZerrs d /\ in_ncluster d' = in_ncluster d /\
      in_nlive d' = in_nlive d /\ in_nlike d' = in_nlike d /\ in_avnlike d' = in_avnlike d /\
      in_avnlikeslice d' = in_avnlikeslice d /\
      in_nposterior d' = Some (Z.of_nat (if o_post o then length (theta r) else 0)) /\
      (o_equals o = false -> in_nequals d' = Some 0) /\
      in_ndead d' = (if o_stats o then Some (Z.of_nat (length (logl r))) else in_ndead d) /\
      (o_stats o && o_means o = false ->
         in_logZ d' = in_logZ d /\ in_logZerr d' = in_logZerr d /\ in_means d' = in_means d /\ in_errs d' = in_errs d) /\
      w_rng w' = (if o_equals o then snd (U (length (logl r)) (w_rng w)) else w_rng w) /\
      (o_stats o = true -> in_extra d = []).
Proof.
  intros E F N U toF srt r d o s w od' s' w' H.
  apply run_out_inv in H as (root & base & d' & R1 & R2 & -> & H). exists root, base, d'. split; [auto|]. split; [auto|]. split; [auto|].
  destruct (write_inv _ _ _ _ _ _ _ _ _ _ _ _ _ _ _ H)
    as (out & w1 & w_rel & us & sel & s3 & w4 & values & stds & A1 & A2 & A3 & A4 & A5 & A6 & A7 & A8 & A9).
  assert (Hst : o_stats o = true -> in_extra d = [] /\ forall q, q <> file_of base root ".stats" -> s' q = s3 q).
  { intros Hs. destruct (A9 Hs) as (ob & B1 & B2 & _).
    assert (Hn : in_root d' = Some root /\ in_base d' = Some base /\ in_extra d' = in_extra d).
    { rewrite B1. destruct (o_means o); cbn; auto. }
    destruct Hn as (N1 & N2 & N3). destruct (C50_written F d' s3) as [W1 W2].
    assert (Hex : in_extra d' = []).
    { destruct (in_extra d') eqn:He; auto. rewrite W2 in B2 by (right; right; congruence). discriminate. }
    split; [congruence|]. destruct (W1 root base N1 N2 Hex) as (o2 & s4 & X1 & X2). rewrite B2 in X1. inversion X1; subst o2 s4.
    destruct X2 as (_ & _ & _ & _ & _ & _ & _ & _ & _ & _ & _ & _ & _ & _ & _ & _ & _ & X). rewrite path_stats in X. exact X. }
  split.
  { intros q Q1 Q2 Q3 Q4. transitivity (s3 q).
    - destruct (o_stats o); [apply Hst; auto|]. destruct A8 as (_ & -> & _); auto.
    - rewrite A7. destruct (o_equals o); [rewrite putf_other by (apply Q3; auto)|];
        (destruct (o_post o); [rewrite putf_other by (apply Q2; auto)|]);
        (destruct (o_dead o); [unfold dead_store; rewrite !putf_other by (apply Q1; auto)|]); auto. }
  assert (Hk : forall P : stats_in F -> Prop,
     (o_stats o = false -> P (set_nequals (length sel) (set_nposterior (if o_post o then length (theta r) else 0%nat) d))) ->
     (o_stats o = true -> o_means o = false ->
        P (set_ndead (length (logl r)) (set_nequals (length sel) (set_nposterior (if o_post o then length (theta r) else 0%nat) d)))) ->
     (o_stats o = true -> o_means o = true -> forall a b c e,
        P (set_means a b c e (set_ndead (length (logl r)) (set_nequals (length sel) (set_nposterior (if o_post o then length (theta r) else 0%nat) d))))) ->
     P d').
  { intros P P1 P2 P3. destruct (o_stats o).
    - destruct (A9 eq_refl) as (ob & -> & _). destruct (o_means o); auto.
    - destruct (A8 eq_refl) as (-> & _). auto. }
  repeat (split; [apply Hk; reflexivity|]).
  split. { intros He. rewrite He in A5. subst sel. apply Hk; reflexivity. }
  split. { apply Hk; intros ->; reflexivity. }
  split. { intros Hb. apply Hk; [intros; cbn; auto|intros; cbn; auto|]. intros H1 H2. rewrite H1, H2 in Hb. discriminate. }
  split; [|intros Hs; apply Hst; auto].
  assert (W1 : w_rng w1 = w_rng w).
  { destruct (o_dead o); [|rewrite A2; auto]. destruct (det_same _ _ _ _ _ _ w (det_dead_birth _ _ _ _ _) (A1 eq_refl)) as (w3 & _ & _ & ?). auto. }
  assert (W4 : w_rng w' = w_rng w4).
  { destruct (o_stats o); [|destruct A8 as (_ & _ & ->); auto]. destruct (A9 eq_refl) as (ob & _ & _ & B3 & B4).
    destruct (o_means o); [|rewrite B4; auto]. destruct (B3 eq_refl) as [_ B5].
    destruct (det_same _ _ _ _ _ _ w (det_std_bootstrap _ _ _ _ _ _ _) B5) as (w3 & _ & _ & ?). auto. }
  rewrite W4, A6. destruct (o_equals o); [|auto]. cbn [w_rng]. destruct (A3 eq_refl) as [G _].
  unfold get_w_rel in G. destruct (get_logw r None) as [logw|] eqn:Hl; [|discriminate]. cbn [rbind] in G. inversion G; subst w_rel.
  destruct (get_logw_facts r None logw Hl I) as (_ & _ & _ & L4 & _). unfold rel. rewrite map_length, L4, W1. auto.
Qed.
Print Assumptions C73_effects.

Lemma dead_files : forall E F N (U : uniforms E) (toF : fl -> num F) srt r labs tmm d root base o s (w : world E) od' s' w',
    complete_run r labs tmm -> settings r = None ->
    in_root d = Some root -> in_base d = Some base -> o_dead o = true -> (forall x, In x (logl r) -> o_init o < x) ->
    write_run_output N U toF srt r (Some d) o s w = (Ok tt, (od', s'), w') ->
    exists out, map s_logl out = logl r /\ map s_theta out = theta r /\
      s' (file_of base root "_dead-birth.txt") = Some (savetxt N (map samp_row out)) /\
      s' (file_of base root "_dead.txt") = Some (savetxt N (map (fun x => but_last (samp_row x)) out)).
Proof.
  intros E F N U toF srt r labs tmm d root base o s w od' s' w' Hc Hset Hroot Hbase Hdead Hi H.
  apply run_out_inv in H as (root2 & base2 & d' & R1 & R2 & -> & H).
  assert (root2 = root) by congruence. assert (base2 = base) by congruence. subst root2 base2.
  destruct (write_inv _ _ _ _ _ _ _ _ _ _ _ _ _ _ _ H)
    as (out & w1 & w_rel & us & sel & s3 & w4 & values & stds & A1 & _ & A3 & A4 & A5 & A6 & A7 & A8 & A9).
  specialize (A1 Hdead). rewrite Hdead in A7.
  destruct (dead_birth_sound E r labs tmm (o_init o) false false w (complete_sound _ _ _ Hc) Hset Hi)
    as (out' & D1 & D2 & D3 & D4 & D5 & D6).
  rewrite A1 in D1. inversion D1; subst out' w1. clear D1. exists out. split; [auto|]. split; [auto|].
  assert (F3 : forall q, q <> file_of base root ".txt" -> q <> file_of base root "_equal_weights.txt" ->
               s3 q = dead_store N (path_join base root) out s q).
  { intros q Q1 Q2. rewrite A7.
    destruct (o_equals o); [rewrite putf_other by auto|]; (destruct (o_post o); [rewrite putf_other by auto|]); auto. }
  assert (F4 : forall q, q <> file_of base root ".stats" -> s' q = s3 q).
  { intros q Hq. destruct (o_stats o) eqn:Hs.
    - destruct (A9 eq_refl) as (ob & B1 & B2 & _).
      assert (Hn : in_root d' = Some root /\ in_base d' = Some base /\ in_extra d' = in_extra d).
      { rewrite B1. destruct (o_means o); cbn; auto. }
      destruct Hn as (N1 & N2 & N3). destruct (C50_written F d' s3) as [W1 W2].
      assert (Hex : in_extra d' = []).
      { destruct (in_extra d') eqn:He; auto. rewrite W2 in B2 by (right; right; congruence). discriminate. }
      destruct (W1 root base N1 N2 Hex) as (o2 & s4 & X1 & X2). rewrite B2 in X1. inversion X1; subst o2 s4.
      destruct X2 as (_ & _ & _ & _ & _ & _ & _ & _ & _ & _ & _ & _ & _ & _ & _ & _ & _ & X). rewrite path_stats in X. auto.
    - destruct (A8 eq_refl) as (_ & -> & _). auto. }
  split; rewrite F4, F3 by (apply file_neq; discriminate); unfold dead_store.
  - rewrite putf_other by (apply (file_neq base root); discriminate). apply putf_same.
  - apply putf_same.
Qed.

(** A run with one sample is not read: its array has one dimension. *)
Theorem C73_single_sample : forall E F N (U : uniforms E) (toF : fl -> num F) srt r labs tmm d root base o s (w : world E) od' s' w' ps da dw (w2 : world E),
    complete_run r labs tmm -> settings r = None -> length (logl r) = 1%nat ->
    in_root d = Some root -> in_base d = Some base -> o_dead o = true -> (forall x, In x (logl r) -> o_init o < x) ->
    write_run_output N U toF srt r (Some d) o s w = (Ok tt, (od', s'), w') ->
    read_polychord_run F N root base ps da dw s' w2 = (Raise IndexError, w2).
Proof.
  intros E F N U toF srt r labs tmm d root base o s w od' s' w' ps da dw w2 Hc Hset Hlen Hroot Hbase Hdead Hi H.
  destruct (dead_files _ _ _ _ _ _ _ _ _ _ _ _ _ _ _ _ _ _ Hc Hset Hroot Hbase Hdead Hi H) as (out & D1 & D2 & D3 & _).
  unfold read_polychord_run. unfold file_of in D3. rewrite D3.
  destruct out as [|x [|y t]]; [rewrite <- D1 in Hlen; discriminate| |rewrite <- D1 in Hlen; discriminate].
  rewrite (load_save N (length (samp_row x)) (map samp_row [x])).
  - reflexivity.
  - unfold samp_row. rewrite app_length. cbn. lia.
  - intros row [<-|[]]. auto.
Qed.
Print Assumptions C73_single_sample.

(** A dead-birth file with no row, one row or one column is an array with one
    dimension; a missing one an OSError. *)
Theorem C73_flat_file : forall E F N root base ps da dw s file rows (w : world E),
    s (path_join base root ++ la "_dead-birth.txt") = Some file -> loadtxt N file = Ok rows ->
    (length rows <= 1)%nat \/ (forall row, In row rows -> (length row <= 1)%nat) ->
    read_polychord_run F N root base ps da dw s w = (Raise IndexError, w).
Proof.
  intros E F N root base ps da dw s file rows w Hs Hl H. unfold read_polychord_run. rewrite Hs, Hl.
  rewrite (wbind_run _ _ _ _ _ w rows w) by reflexivity.
  replace (two_dims rows) with false; [reflexivity|]. symmetry. unfold two_dims. apply andb_false_iff.
  destruct H as [H|H]; [left; apply Nat.ltb_ge; auto|].
  destruct rows as [|row t]; [left; reflexivity|]. right. apply Nat.ltb_ge. cbn [hd]. apply H. left; auto.
Qed.
Print Assumptions C73_flat_file.
Theorem C73_no_file : forall E F N root base ps da dw s (w : world E),
    s (path_join base root ++ la "_dead-birth.txt") = None ->
    read_polychord_run F N root base ps da dw s w = (Raise OSError, w).
Proof. intros E F N root base ps da dw s w H. unfold read_polychord_run. rewrite H. reflexivity. Qed.
Print Assumptions C73_no_file.

(** The dead file has the parameters and then the likelihood. *)
Theorem C73_dead_file : forall E F N (U : uniforms E) (toF : fl -> num F) srt r labs tmm k d root base o s (w : world E) od' s' w',
    complete_run r labs tmm -> settings r = None -> rectangular r k ->
    in_root d = Some root -> in_base d = Some base -> o_dead o = true -> (forall x, In x (logl r) -> o_init o < x) ->
    write_run_output N U toF srt r (Some d) o s w = (Ok tt, (od', s'), w') ->
    exists file, s' (file_of base root "_dead.txt") = Some file /\
      loadtxt N file = Ok (map (fun i => map (rnd N) (nth i (theta r) [] ++ [nth i (logl r) 0])) (seq 0 (length (logl r)))).
Proof.
  intros E F N U toF srt r labs tmm k d root base o s w od' s' w' Hc Hset Hk Hroot Hbase Hdead Hi H.
  destruct (dead_files _ _ _ _ _ _ _ _ _ _ _ _ _ _ _ _ _ _ Hc Hset Hroot Hbase Hdead Hi H) as (out & D1 & D2 & _ & D3).
  eexists. split; [exact D3|].
  assert (Hr : forall x, but_last (samp_row x) = s_theta x ++ [s_logl x]).
  { intros x. unfold samp_row, but_last. change (s_theta x ++ [s_logl x; s_birth x]) with (s_theta x ++ [s_logl x] ++ [s_birth x]).
    rewrite app_assoc. apply removelast_last. }
  rewrite (load_save N (k + 1)).
  - f_equal. rewrite map_map, <- D1, <- D2, map_length. apply nth_ext' with (d := []).
    + rewrite !map_length, seq_length. auto.
    + intros i Hl. rewrite map_length in Hl. rewrite (map_nth_in _ _ _ _ (mkSamp [] 0 0)) by auto. rewrite Hr.
      rewrite (map_nth_in _ _ _ _ 0%nat) by (rewrite seq_length; auto). rewrite seq_nth by auto. cbn [Nat.add].
      rewrite (map_nth_in _ _ s_theta _ (mkSamp [] 0 0)), (map_nth_in _ _ s_logl _ (mkSamp [] 0 0)) by auto. auto.
  - lia.
  - intros row Hrow. apply in_map_iff in Hrow as (x & <- & Hx). rewrite Hr, app_length. cbn [length].
    rewrite (Hk (s_theta x)); auto. rewrite <- D2. apply in_map. auto.
Qed.
Print Assumptions C73_dead_file.

Lemma stats_file_form : forall F (d : stats_in F) s ob s', write_stats_file d s = Ok (ob, s') ->
    exists path content, (forall root base, in_root d = Some root -> in_base d = Some base -> path = file_of base root ".stats") /\
      s' = putf path content s /\ forall s2, write_stats_file d s2 = Ok (ob, putf path content s2).
Proof.
  intros F d s ob s' H. unfold write_stats_file in *. destruct (in_root d) as [root|]; [|discriminate].
  destruct (in_base d) as [base|]; [|discriminate]. destruct (in_extra d); [|discriminate]. cbn [assertb rbind] in *.
  inversion H; subst. eexists _, _. split; [|split; [reflexivity|reflexivity]].
  intros r b Hr Hb. inversion Hr; inversion Hb; subst. apply path_stats.
Qed.
Lemma putf_twice : forall p c s q, s p = Some c -> putf p c s q = s q.
Proof. intros p c s q H. unfold putf, text_eqb. destruct (list_eq_dec ascii_dec q p) as [->|]; auto. Qed.

(** Writing the same run again changes nothing. *)
Theorem C73_again : forall E F N (U : uniforms E) (toF : fl -> num F) srt r d o s (w : world E) d' s' w' (w2 : world E),
    o_equals o = false ->
    write_run_output N U toF srt r (Some d) o s w = (Ok tt, (Some d', s'), w') ->
    exists s'' w3, write_run_output N U toF srt r (Some d') o s' w2 = (Ok tt, (Some d', s''), w3) /\
      (forall q, s'' q = s' q) /\ w_rng w3 = w_rng w2.
Proof.
  intros E F N U toF srt r d o s w d' s' w' w2 Heq H.
  assert (Hnm : in_root d' = in_root d /\ in_base d' = in_base d).
  { destruct (C73_effects _ _ _ _ _ _ _ _ _ _ _ _ _ _ H) as (root & base & d2 & _ & _ & X & _ & N1 & N2 & _). inversion X; subst. auto. }
  destruct Hnm as [Hn1 Hn2].
  apply run_out_inv in H as (root & base & d2 & R1 & R2 & X & H). inversion X; subst d2. clear X.
  unfold write_run_output. rewrite Hn1, Hn2, R1, R2. set (path := path_join base root) in *.
  destruct (write_inv _ _ _ _ _ _ _ _ _ _ _ _ _ _ _ H)
    as (out & w1 & w_rel & us & sel & s3 & w4 & values & stds & A1 & A2 & A3 & A4 & A5 & A6 & A7 & A8 & A9).
  rewrite Heq in A5, A6, A7. subst sel w4.
  assert (Hw : exists w1', (o_dead o = true -> run_dead_birth_array r (o_init o) false false w2 = (Ok out, w1')) /\
                           (o_dead o = false -> w1' = w2) /\ w_rng w1' = w_rng w2).
  { destruct (o_dead o).
    - destruct (det_same _ _ _ _ _ _ w2 (det_dead_birth _ _ _ _ _) (A1 eq_refl)) as (w3 & X1 & X2 & X3).
      exists w3. split; auto. split; [discriminate|auto].
    - exists w2. split; [discriminate|]. auto. }
  destruct Hw as (w1' & V1 & V2 & V3).
  rewrite (write_fwd _ _ N U toF srt r o path d' s' w2 out w1' w_rel V1 V2 A3). rewrite Heq. cbn [length].
  set (s3' := if o_post o then putf (path ++ la ".txt") (post_text N w_rel r) (if o_dead o then dead_store N path out s' else s')
              else if o_dead o then dead_store N path out s' else s').
  assert (Hoff : forall q, q <> file_of base root ".stats" -> s' q = s3 q).
  { intros q Hq. destruct (o_stats o) eqn:Hs; [|destruct (A8 eq_refl) as (_ & -> & _); auto].
    destruct (A9 eq_refl) as (ob & _ & B2 & _). destruct (stats_file_form _ _ _ _ _ B2) as (pth & content & S1 & S2 & _).
    rewrite (S1 root base) in S2 by congruence. rewrite S2. apply putf_other. auto. }
  assert (Hs3 : forall q, s3' q = s' q).
  { assert (Hd : forall q, (if o_dead o then dead_store N path out s' else s') q = s' q).
    { intros q. destruct (o_dead o); auto. unfold dead_store.
      assert (H1 : s' (path ++ la "_dead-birth.txt") = Some (savetxt N (map samp_row out))).
      { rewrite Hoff by (apply (file_neq base root); discriminate). rewrite A7.
        destruct (o_post o); rewrite ?putf_other by (apply (file_neq base root); discriminate); unfold dead_store;
          rewrite putf_other by (apply (file_neq base root); discriminate); apply putf_same. }
      assert (H2 : s' (path ++ la "_dead.txt") = Some (savetxt N (map (fun x => but_last (samp_row x)) out))).
      { rewrite Hoff by (apply (file_neq base root); discriminate). rewrite A7.
        destruct (o_post o); rewrite ?putf_other by (apply (file_neq base root); discriminate); apply putf_same. }
      rewrite putf_twice; rewrite putf_twice; auto. }
    intros q. unfold s3'. destruct (o_post o); auto. rewrite putf_twice; auto. rewrite Hd, Hoff by (apply (file_neq base root); discriminate).
    rewrite A7. apply putf_same. }
  unfold stats_stage. destruct (o_stats o) eqn:Hs.
  - destruct (A9 eq_refl) as (ob & B1 & B2 & B3 & B4). destruct (stats_file_form _ _ _ _ _ B2) as (pth & content & S1 & S2 & S3).
    rewrite (S1 root base) in S2, S3 by congruence.
    assert (Hs' : s' (file_of base root ".stats") = Some content) by (rewrite S2; apply putf_same).
    assert (Hst : exists w3, (if o_means o then
                let% values := slift (wlift (run_estimators srt r (stats_estimators r) None)) in
                let% stds := slift (run_std_bootstrap srt r (stats_estimators r) false true (o_nsim o)
                                                      (default_seeds (o_nsim o))) in
                set_out (set_means (toF (hd None values)) (toF (hd None stds))
                                   (map toF (tl values)) (map toF (tl stds)))
              else sret tt) (set_ndead (length (logl r)) (set_nequals 0 (set_nposterior (if o_post o then length (theta r) else 0%nat) d')), s3') w1'
           = (Ok tt, (d', s3'), w3) /\ w_rng w3 = w_rng w1').
    { destruct (o_means o).
      - destruct (B3 eq_refl) as [B5 B6]. destruct (det_same _ _ _ _ _ _ w1' (det_std_bootstrap _ _ _ _ _ _ _) B6) as (w3 & X1 & X2 & _).
        exists w3. split; auto. unfold sbind, slift, wlift. rewrite B5, X1. unfold set_out. cbn [fst snd].
        do 3 f_equal. rewrite B1 at 1. cbn [length]. rewrite B1. reflexivity.
      - exists w1'. split; auto. unfold sret. do 3 f_equal. rewrite B1. reflexivity. }
    destruct Hst as (w3 & T1 & T2).
    exists (putf (file_of base root ".stats") content s3'), w3. split; [|split].
    + rewrite (sbind_run _ _ _ _ _ _ _ _ tt (set_ndead (length (logl r)) (set_nequals 0 (set_nposterior (if o_post o then length (theta r) else 0%nat) d')), s3') w1') by reflexivity.
      rewrite (sbind_run _ _ _ _ _ _ _ _ _ _ _ T1). cbn [fst snd]. rewrite S3. reflexivity.
    + intros q. rewrite putf_twice; rewrite Hs3; auto.
    + congruence.
  - exists s3', w1'. split; [|split; auto]. destruct (A8 eq_refl) as (-> & _). reflexivity.
Qed.
Print Assumptions C73_again.

(** ** When write_run_output succeeds *)
Lemma complete_weighable : forall r labs tmm, complete_run r labs tmm -> settings r = None -> PropEstimators.weighable r None.
Proof.
  intros r labs tmm Hc Hset. pose proof Hc as ((C1 & C2 & C3) & _ & _ & _ & C5). destruct C3 as (V1 & V2 & V3 & _).
  split; [eapply PropCombine.complete_nonempty; eauto|]. split; [auto|]. split; [auto|]. split; [|exact I].
  intros n Hn. destruct (In_nth _ _ 0 Hn) as (i & I1 & <-). rewrite C5 by lia.
  assert (Hi : exists init, forall x, In x (logl r) -> init < x).
  { clear. induction (logl r) as [|y t [b IH]]; [exists 0; intros x []|]. exists (Z.min b (y - 1)).
    intros x [<-|Hx]; [lia|]. specialize (IH x Hx). lia. }
  destruct Hi as (init & Hi).
  destruct (dead_birth_sound (script_env []) r labs tmm init false false (@mkW (script_env []) [] []) (complete_sound _ _ _ Hc) Hset Hi)
    as (out & _ & [_ D2] & _ & D4 & _ & D6).
  assert (Hin : In (nth i (logl r) 0) (logl r)) by (apply nth_In; lia).
  rewrite <- D6 by (apply Hi; auto). rewrite <- D4 in Hin. apply in_map_iff in Hin as (x & Hx & Hxin).
  destruct (D2 (s_birth x) (s_logl x)) as (B1 & _); [unfold points; apply in_map_iff; exists x; auto|].
  assert (Hf : In x (filter (fun s => (s_birth s <? nth i (logl r) 0) && (nth i (logl r) 0 <=? s_logl s)) out)).
  { apply filter_In. split; auto. rewrite <- D4, <- Hx. rewrite D4 in *. apply andb_true_iff. split; [apply Z.ltb_lt; lia|apply Z.leb_le; lia]. }
  destruct (filter _ out); [destruct Hf|]. cbn. lia.
Qed.
Lemma estimators_ok : forall srt r k, PropEstimators.weighable r None -> rectangular r k ->
    exists v, run_estimators srt r (Logz :: map (fun i => ParamMean (Z.of_nat i) false) (seq 0 k)) None = Ok v.
Proof.
  intros srt r k Hw Hk. destruct (PropEstimators.weighable_logw r None Hw) as (logw & H1 & _).
  assert (Hhd : length (hd [] (theta r)) = k).
  { destruct Hw as (W1 & _ & W3 & _). destruct (theta r) as [|t l] eqn:Ht; [destruct (logl r); [congruence|discriminate]|].
    apply Hk. rewrite Ht. left; auto. }
  unfold run_estimators. rewrite H1. cbn [rbind mapM]. unfold estimate at 1, logz, logw_of. cbn [rbind].
  assert (Hm : forall l, (forall i, In i l -> (i < k)%nat) ->
     exists v, mapM (fun e => estimate srt e r (Some logw) None) (map (fun i => ParamMean (Z.of_nat i) false) l) = Ok v).
  { induction l as [|i l IH]; intros Hl; [eexists; reflexivity|]. destruct IH as (v & Hv); [intros; apply Hl; right; auto|].
    cbn [map mapM]. unfold estimate at 1, param_mean, logw_of, column. cbn [rbind]. rewrite Hhd.
    assert (Hi : (i < k)%nat) by (apply Hl; left; auto).
    destruct (Z.leb_spec (- Z.of_nat k) (Z.of_nat i)); [|lia]. destruct (Z.ltb_spec (Z.of_nat i) (Z.of_nat k)); [|lia]. cbn [andb rbind].
    rewrite Hv. eexists; reflexivity. }
  destruct (Hm (seq 0 k)) as (v & ->); [intros i Hi; apply in_seq in Hi; lia|]. eexists; reflexivity.
Qed.
Lemma wmapM_total : forall E A B (f : A -> W E B) l, (forall x w, In x l -> exists y w', f x w = (Ok y, w')) ->
    forall w, exists ys w', wmapM f l w = (Ok ys, w').
Proof.
  induction l as [|x t IH]; intros H w; cbn [wmapM]; [eexists _, _; reflexivity|].
  destruct (H x w (or_introl eq_refl)) as (y & w1 & H1). rewrite (wbind_run _ _ _ _ _ _ _ _ H1).
  destruct (IH (fun x0 w0 Hx => H x0 w0 (or_intror Hx)) w1) as (ys & w2 & H2). rewrite (wbind_run _ _ _ _ _ _ _ _ H2).
  eexists _, _; reflexivity.
Qed.
Lemma boot_threads : forall E r ths ns b, (forall w, get_run_threads (E := E) r w = (Ok ths, w)) -> forall w : world E,
    bootstrap_resample_run r (Some ths) ns b w = bootstrap_resample_run r None ns b w.
Proof.
  intros E r ths ns b H w. unfold bootstrap_resample_run.
  rewrite !(wbind_run _ _ _ get_state _ w (w_rng w) w) by reflexivity. set (st := w_rng w). set (w1 := w).
  destruct (apply_seed b w1) as [[u|e] w2] eqn:Hs.
  - rewrite !(wbind_run _ _ _ _ _ _ _ _ Hs). rewrite (wbind_run _ _ _ _ _ _ _ _ (H w2)).
    rewrite (wbind_run _ _ _ (wret ths) _ w2 ths w2) by reflexivity. auto.
  - rewrite !(wbind_raise _ _ _ _ _ _ _ _ Hs). auto.
Qed.
Lemma std_ok : forall E srt r labs tmm k n (w : world E), Z.of_nat n <= 4294967296 -> complete_run r labs tmm -> rectangular r k ->
    (forall m e, ~ In (Fin m, e) tmm) ->
    exists v w', run_std_bootstrap srt r (Logz :: map (fun i => ParamMean (Z.of_nat i) false) (seq 0 k)) false true n
                                   (default_seeds n) w = (Ok v, w').
Proof.
  intros E srt r labs tmm k n w Hsz Hc Hk Hm. unfold run_std_bootstrap, run_bootstrap_values, bootstrap_columns.
  assert (Hcon : consistent r labs tmm) by apply Hc.
  assert (Hths : exists ths, forall w : world E, get_run_threads r w = (Ok ths, w)).
  { eexists. intros w0. eapply get_run_threads_spec; eauto. }
  destruct Hths as (ths & Hths).
  assert (Hlen : length (default_seeds (E := E) n) = n) by (unfold default_seeds, zrange; rewrite !map_length, seq_length; auto).
  assert (Hcols : exists cols w', (let* _ := wassert (length (default_seeds (E := E) n) =? n)%nat in
      let* ths := get_run_threads r in
      wmapM (fun b => let* rr := bootstrap_resample_run r (Some ths) false b in
        wlift (run_estimators srt rr (Logz :: map (fun i => ParamMean (Z.of_nat i) false) (seq 0 k)) None)) (default_seeds n)) w = (Ok cols, w')).
  { rewrite Hlen, Nat.eqb_refl. rewrite (wbind_run _ _ _ _ _ w tt w) by reflexivity. rewrite (wbind_run _ _ _ _ _ _ _ _ (Hths w)).
    apply wmapM_total. intros b w0 Hb0.
    assert (Hacc : SpecRun.accepted_seed b).
    { unfold default_seeds, zrange in Hb0. apply in_map_iff in Hb0 as (z & <- & Hz). apply in_map_iff in Hz as (m & <- & Hm0).
      apply in_seq in Hm0. cbn. lia. }
    destruct (PropBoot.C25_bootstrap_static E r labs tmm b w0 Hacc Hcon Hm) as (_ & Hlt & rr & B1 & B2 & _ & B4 & B5 & _ & _ & _ & _ & B8 & B9).
    { intros i j Hij _. destruct Hc as (_ & Hnd & _). destruct Hcon as (_ & _ & _ & _ & _ & V4 & _).
      assert (Hle : nth i (logl r) 0 <= nth j (logl r) 0) by (apply (proj1 (ssorted_nth _ Z.le 0 _) V4); lia).
      assert (nth i (logl r) 0 <> nth j (logl r) 0); [|lia].
      intros He. apply (proj1 (NoDup_nth _ 0) Hnd) in He; lia. }
    rewrite (wbind_run _ _ _ _ _ _ rr (mkW (match b with BKeep => snd (draw_seq E (length tmm) (length tmm) (seeded_state b (w_rng w0))) | _ => w_rng w0 end) (w_warn w0))).
    2: { rewrite boot_threads by auto. exact B1. }
    destruct (estimators_ok srt rr k) as (v & Hv).
    - split. { intros He. rewrite He in B5. destruct (nlive_array rr); [discriminate B9|discriminate]. }
      split; [auto|]. split; [auto|]. split; [|exact I]. intros x Hx. apply B8 in Hx. lia.
    - intros t Ht. apply Hk. destruct (In_nth _ _ [] Ht) as (i & I1 & <-).
      assert (Hin : In (nth i (logl rr) 0, nth i (theta rr) []) (combine (logl rr) (theta rr))).
      { rewrite <- combine_nth by lia. apply nth_In. rewrite combine_length. lia. }
      apply (Permutation_in _ B2) in Hin. apply in_flat_map in Hin as (j & _ & Hj). 
      unfold samples_of_thread in Hj.
      apply in_map_iff in Hj as ((lab & y) & Hy & Hj). cbn [snd] in Hy. subst y. apply filter_In in Hj as [Hj _].
      apply in_combine_r in Hj. eapply in_combine_r; eauto.
    - rewrite Hv. eexists _, _; reflexivity. }
  destruct Hcols as (cols & w' & Hcols). 
  erewrite wbind_run by (erewrite wbind_run by exact Hcols; reflexivity). eexists _, _; reflexivity.
Qed.

(** write_run_output of a complete run succeeds if the output key has only
    known keys and, for the bootstrap, all threads start from the prior. *)
Lemma stage_values : forall E F (toF : fl -> num F) srt r labs tmm k o d s (w : world E),
    complete_run r labs tmm -> settings r = None -> rectangular r k -> o_stats o = true ->
    (o_means o = true -> (forall m e, ~ In (Fin m, e) tmm) /\ Z.of_nat (o_nsim o) <= 4294967296) ->
    exists d2 w2, in_root d2 = in_root d /\ in_base d2 = in_base d /\ in_extra d2 = in_extra d /\
      in_ndead d2 = Some (Z.of_nat (length (logl r))) /\ in_nposterior d2 = in_nposterior d /\ in_nequals d2 = in_nequals d /\
      stats_stage toF srt r o (d, s) w =
      match write_stats_file d2 s with Ok (_, s') => (Ok tt, (d2, s'), w2) | Raise e => (Raise e, (d2, s), w2) end.
Proof.
  intros E F toF srt r labs tmm k o d s w Hc Hset Hk Hs Hm. unfold stats_stage. rewrite Hs.
  rewrite (sbind_run _ _ _ _ _ _ _ _ tt (set_ndead (length (logl r)) d, s) w) by reflexivity.
  assert (Hdim : stats_estimators r = Logz :: map (fun i => ParamMean (Z.of_nat i) false) (seq 0 k)).
  { unfold stats_estimators, ndim. do 3 f_equal. destruct (complete_weighable _ _ _ Hc Hset) as (W1 & _ & W3 & _).
    destruct (theta r) as [|t l] eqn:Ht; [destruct (logl r); [congruence|discriminate]|]. apply Hk. rewrite Ht. left; auto. }
  destruct (o_means o).
  - destruct (estimators_ok srt r k (complete_weighable _ _ _ Hc Hset) Hk) as (v & Hv).
    destruct (std_ok E srt r labs tmm k (o_nsim o) w (proj2 (Hm eq_refl)) Hc Hk (proj1 (Hm eq_refl))) as (v2 & w2 & Hv2). rewrite <- Hdim in Hv, Hv2.
    exists (set_means (toF (hd None v)) (toF (hd None v2)) (map toF (tl v)) (map toF (tl v2)) (set_ndead (length (logl r)) d)), w2.
    repeat (split; [reflexivity|]). erewrite sbind_run; [|unfold sbind, slift, wlift; rewrite Hv, Hv2; reflexivity]. cbn [fst snd].
    destruct (write_stats_file _ s) as [[ob s']|e]; reflexivity.
  - exists (set_ndead (length (logl r)) d), w. repeat (split; [reflexivity|]).
    erewrite sbind_run by reflexivity. cbn [fst snd]. destruct (write_stats_file _ s) as [[ob s']|e]; reflexivity.
Qed.
Theorem C73_succeeds : forall E F N (U : uniforms E) (toF : fl -> num F) srt r labs tmm k d root base o s (w : world E),
    complete_run r labs tmm -> settings r = None -> rectangular r k ->
    in_root d = Some root -> in_base d = Some base ->
    (o_dead o = true -> forall x, In x (logl r) -> o_init o < x) ->
    (o_stats o = true -> in_extra d = []) ->
    (o_stats o = true -> o_means o = true -> (forall m e, ~ In (Fin m, e) tmm) /\ Z.of_nat (o_nsim o) <= 4294967296) ->
    exists d' s' w', write_run_output N U toF srt r (Some d) o s w = (Ok tt, (Some d', s'), w').
Proof.
  intros E F N U toF srt r labs tmm k d root base o s w Hc Hset Hk Hroot Hbase Hi Hex Hm.
  pose proof (complete_weighable _ _ _ Hc Hset) as Hw. destruct (PropEstimators.weighable_logw r None Hw) as (logw & Hl & _).
  assert (Hd : exists out, o_dead o = true -> run_dead_birth_array r (o_init o) false false w = (Ok out, w)).
  { destruct (o_dead o); [|exists []; discriminate].
    destruct (dead_birth_sound E r labs tmm (o_init o) false false w (complete_sound _ _ _ Hc) Hset (Hi eq_refl)) as (out & D & _). eauto. }
  destruct Hd as (out & Hd). unfold write_run_output. rewrite Hroot, Hbase.
  rewrite (write_fwd E F N U toF srt r o (path_join base root) d s w out w (rel logw) Hd (fun _ => eq_refl)).
  2: { intros _. unfold get_w_rel. rewrite Hl. split; [reflexivity|apply Hw]. }
  cbv zeta. match goal with |- context [stats_stage toF srt r o (?a, ?b) ?c] => set (d1 := a); set (s1 := b); set (w1 := c) end.
  destruct (o_stats o) eqn:Hs.
  - destruct (stage_values E F toF srt r labs tmm k o d1 s1 w1 Hc Hset Hk Hs (Hm eq_refl)) as (d2 & w2 & D1 & D2 & D3 & _ & _ & _ & ->).
    destruct (C50_written F d2 s1) as [W1 _].
    destruct (W1 root base) as (ob & s' & -> & _); [rewrite D1; exact Hroot|rewrite D2; exact Hbase|rewrite D3; exact (Hex eq_refl)|].
    eexists _, _, _. reflexivity.
  - unfold stats_stage. rewrite Hs. eexists _, _, _. reflexivity.
Qed.
Print Assumptions C73_succeeds.

(** ** C74 *)
Lemma post_store : forall E F N (U : uniforms E) (toF : fl -> num F) srt r d root base o s (w : world E) od' s' w',
    in_root d = Some root -> in_base d = Some base ->
    write_run_output N U toF srt r (Some d) o s w = (Ok tt, (od', s'), w') -> o_equals o || o_post o = true ->
    exists w_rel w1 d', od' = Some d' /\ get_w_rel r None = Ok w_rel /\ length w_rel = length (logl r) /\
      length (theta r) = length (logl r) /\ w_rng w1 = w_rng w /\
      (o_post o = true -> s' (file_of base root ".txt") = Some (post_text N w_rel r)) /\
      (o_equals o = true -> let sel := accepted w_rel (fst (U (length w_rel) (w_rng w1))) in
         in_nequals d' = Some (Z.of_nat (length sel)) /\
         s' (file_of base root "_equal_weights.txt") = Some (savetxt N (take [] (post_rows r) sel))).
Proof.
  intros E F N U toF srt r d root base o s w od' s' w' Hroot Hbase H Hep.
  apply run_out_inv in H as (root2 & base2 & d' & R1 & R2 & -> & H).
  assert (root2 = root) by congruence. assert (base2 = base) by congruence. subst root2 base2.
  destruct (write_inv _ _ _ _ _ _ _ _ _ _ _ _ _ _ _ H)
    as (out & w1 & w_rel & us & sel & s3 & w4 & values & stds & A1 & A2 & A3 & A4 & A5 & A6 & A7 & A8 & A9).
  destruct (A3 Hep) as [G1 G2]. exists w_rel, w1, d'. split; [auto|]. split; [auto|].
  assert (Hlen : length w_rel = length (logl r)).
  { unfold get_w_rel in G1. destruct (get_logw r None) as [logw|] eqn:Hl; [|discriminate]. cbn [rbind] in G1. inversion G1; subst w_rel.
    destruct (get_logw_facts r None logw Hl I) as (_ & _ & _ & L4 & _). unfold rel. rewrite map_length. auto. }
  split; [auto|]. split; [auto|].
  split. { destruct (o_dead o); [|rewrite A2; auto]. destruct (det_same _ _ _ _ _ _ w (det_dead_birth _ _ _ _ _) (A1 eq_refl)) as (w3 & _ & _ & ?). auto. }
  assert (Hoff : forall q, q <> file_of base root ".stats" -> s' q = s3 q).
  { intros q Hq. destruct (o_stats o) eqn:Hs; [|destruct (A8 eq_refl) as (_ & -> & _); auto].
    destruct (A9 eq_refl) as (ob & B1 & B2 & _). destruct (stats_file_form _ _ _ _ _ B2) as (pth & content & S1 & S2 & _).
    rewrite (S1 root base) in S2; [|rewrite B1; destruct (o_means o); exact R1|rewrite B1; destruct (o_means o); exact R2].
    rewrite S2. apply putf_other. auto. }
  split.
  - intros Hp. rewrite Hoff by (apply file_neq; discriminate). rewrite A7, Hp.
    destruct (o_equals o); rewrite ?putf_other by (apply (file_neq base root); discriminate); apply putf_same.
  - intros He. rewrite He in A5, A7. subst us sel. split.
    + destruct (o_stats o); [|destruct (A8 eq_refl) as (-> & _); reflexivity].
      destruct (A9 eq_refl) as (ob & -> & _). destruct (o_means o); reflexivity.
    + rewrite Hoff by (apply file_neq; discriminate). rewrite A7. apply putf_same.
Qed.
Lemma post_rows_nth : forall r i, length (theta r) = length (logl r) -> (i < length (logl r))%nat ->
    nth i (post_rows r) [] = -2 * nth i (logl r) 0 :: nth i (theta r) [].
Proof.
  intros r i H Hi. unfold post_rows. rewrite (map_nth_in _ _ _ _ (0, [])) by (rewrite combine_length; lia).
  rewrite combine_nth by lia. auto.
Qed.

(** A line of the file of posterior samples. *)
Definition line_reads (N : savefmt) (l : text) (x : R) (row : list Z) : Prop :=
  exists tok toks, split_ws l = tok :: toks /\ rdw N tok = Some (rndw N x) /\
    Forall2 (fun t z => rd N t = Some (rnd N z)) toks row.
Theorem C74_posterior_file : forall E F N (U : uniforms E) (toF : fl -> num F) srt r d root base o s (w : world E) od' s' w',
    in_root d = Some root -> in_base d = Some base -> o_post o = true ->
    write_run_output N U toF srt r (Some d) o s w = (Ok tt, (od', s'), w') ->
    exists file w_rel, s' (file_of base root ".txt") = Some file /\ get_w_rel r None = Ok w_rel /\
      length (readlines file) = length (logl r) /\
      forall i, (i < length (logl r))%nat ->
        line_reads N (nth i (readlines file) []) (nth i w_rel 0%R) (-2 * nth i (logl r) 0 :: nth i (theta r) []).
Proof.
  intros E F N U toF srt r d root base o s w od' s' w' Hroot Hbase Hp H.
  destruct (post_store _ _ _ _ _ _ _ _ _ _ _ _ _ _ _ _ Hroot Hbase H) as (w_rel & w1 & d' & _ & P2 & P3 & P4 & _ & P5 & _).
  { rewrite Hp. apply orb_true_r. }
  exists (post_text N w_rel r), w_rel. split; [auto|]. split; [auto|].
  assert (Htok : forall x row, exists tok toks, Forall2 printed (prw N x :: map (pr N) row) (tok :: toks) /\ rdw N tok = Some (rndw N x) /\
             Forall2 (fun t z => rd N t = Some (rnd N z)) toks row).
  { intros x row. destruct (prw_form N x) as (k & tok & T1 & T2 & T3). exists tok.
    induction row as [|z row (toks & I1 & I2 & I3)].
    - exists []. split; [|split; [auto|constructor]]. constructor; [exists k; auto|constructor].
    - destruct (pr_form N z) as (k2 & t2 & Q1 & Q2 & Q3). exists (t2 :: toks). split; [|split; [auto|constructor; auto]].
      inversion I1; subst. constructor; auto. cbn [map]. constructor; auto. exists k2. auto. }
  set (lines := map (fun '(x, row) => join_sp (prw N x :: map (pr N) row)) (combine w_rel (post_rows r))).
  assert (Hl : readlines (post_text N w_rel r) = map with_nl lines).
  { unfold post_text, text_lines. apply readlines_lines. intros l Hin Hn. unfold lines in Hin.
    apply in_map_iff in Hin as ((x & row) & <- & _). destruct (Htok x row) as (tok & toks & T1 & _).
    destruct (printed_chars _ _ _ T1 Hn) as [Hc _]. congruence. }
  rewrite Hl, map_length. unfold lines. rewrite map_length.
  assert (Hpl : length (post_rows r) = length (logl r)) by (unfold post_rows; rewrite map_length, combine_length; lia).
  rewrite combine_length, P3, Hpl, Nat.min_id. split; [auto|]. intros i Hi.
  rewrite map_map, (map_nth_in _ _ _ _ (0%R, [])) by (rewrite combine_length; lia). rewrite combine_nth by lia.
  rewrite post_rows_nth by auto. destruct (Htok (nth i w_rel 0%R) (-2 * nth i (logl r) 0 :: nth i (theta r) [])) as (tok & toks & T1 & T2 & T3).
  exists tok, toks. split; [|auto]. unfold with_nl. rewrite (split_printed _ _ T1 newline []) by auto. apply app_nil_r.
Qed.
Print Assumptions C74_posterior_file.

(** The samples with equal weights are those, in their order, whose weight is
    above the number drawn for it.  There is always one. *)
Theorem C74_equal_weights : forall E F N (U : uniforms E) (toF : fl -> num F) srt r k d root base o s (w : world E) od' s' w',
    in_root d = Some root -> in_base d = Some base -> o_equals o = true -> rectangular r k ->
    let us := fst (U (length (logl r)) (w_rng w)) in
    length us = length (logl r) -> (forall u, In u us -> (0 <= u < 1)%R) ->
    write_run_output N U toF srt r (Some d) o s w = (Ok tt, (od', s'), w') ->
    exists file w_rel inds d', od' = Some d' /\ get_w_rel r None = Ok w_rel /\
      s' (file_of base root "_equal_weights.txt") = Some file /\
      StronglySorted lt inds /\ inds <> [] /\
      (forall i, In i inds <-> (i < length (logl r))%nat /\ (nth i us 0 < nth i w_rel 0)%R) /\
      in_nequals d' = Some (Z.of_nat (length inds)) /\
      loadtxt N file = Ok (map (fun i => map (rnd N) (-2 * nth i (logl r) 0 :: nth i (theta r) [])) inds).
Proof.
  intros E F N U toF srt r k d root base o s w od' s' w' Hroot Hbase He Hk us Hus Hu H.
  destruct (post_store _ _ _ _ _ _ _ _ _ _ _ _ _ _ _ _ Hroot Hbase H) as (w_rel & w1 & d' & P1 & P2 & P3 & P4 & P5 & _ & P6).
  { rewrite He. auto. }
  destruct (P6 He) as [Q1 Q2]. rewrite P5, P3 in Q1, Q2. fold us in Q1, Q2. set (sel := accepted w_rel us) in *.
  assert (Hsel : forall i, In i sel <-> (i < length (logl r))%nat /\ (nth i us 0 < nth i w_rel 0)%R).
  { intros i. unfold sel, accepted. rewrite (in_where _ _ (0%R, 0%R)). rewrite combine_length, P3, Hus, Nat.min_id, combine_nth by lia.
    cbn [fst snd]. destruct (Rlt_dec (nth i us 0%R) (nth i w_rel 0%R)); split; intros [? ?]; split; auto; try discriminate. }
  exists (savetxt N (take [] (post_rows r) sel)), w_rel, sel, d'. split; [auto|]. split; [auto|]. split; [auto|].
  split; [apply where_sorted|]. split.
  { assert (Hone : In 1%R w_rel).
    { unfold get_w_rel in P2. destruct (get_logw r None) as [logw|] eqn:Hl; [|discriminate].
      apply (C33_relative_weights r None logw w_rel); auto; [exact I|]. unfold get_w_rel. rewrite Hl. auto. }
    destruct (In_nth _ _ 0%R Hone) as (i & I1 & I2). intros Hn. assert (Hin : In i sel).
    { apply Hsel. split; [lia|]. rewrite I2. apply Hu. apply nth_In. lia. }
    rewrite Hn in Hin. destruct Hin. }
  split; [auto|]. split; [auto|]. rewrite (load_save N (k + 1)).
  - f_equal. unfold take. rewrite map_map. apply map_ext_in. intros i Hi. apply Hsel in Hi as [Hi _]. rewrite post_rows_nth by auto. auto.
  - lia.
  - intros row Hrow. unfold take in Hrow. apply in_map_iff in Hrow as (i & <- & Hi). apply Hsel in Hi as [Hi _].
    rewrite post_rows_nth by auto. cbn [length]. rewrite (Hk (nth i (theta r) [])); [lia|]. apply nth_In. lia.
Qed.
Print Assumptions C74_equal_weights.

(** ** C75 *)
(** Without the two names nothing is written.  Errors of run_dead_birth_array
    are raised before anything is written.  A key which write_stats_file does
    not know is an error only after everything else was done: the other files
    are there, and the output key has been changed. *)
Theorem C75_errors : forall E F N (U : uniforms E) (toF : fl -> num F) srt r o s (w : world E),
    write_run_output N U toF srt r None o s w = (Raise KeyError, (None, s), w) /\
    (forall d, in_root d = None \/ in_base d = None ->
       write_run_output N U toF srt r (Some d) o s w = (Raise AssertionError, (Some d, s), w)) /\
    (forall d root base e w', in_root d = Some root -> in_base d = Some base -> o_dead o = true ->
       run_dead_birth_array r (o_init o) false false w = (Raise e, w') ->
       write_run_output N U toF srt r (Some d) o s w = (Raise e, (Some d, s), w')) /\
    (forall d root base labs tmm k, in_root d = Some root -> in_base d = Some base -> in_extra d <> [] ->
       complete_run r labs tmm -> settings r = None -> rectangular r k ->
       (o_dead o = true -> forall x, In x (logl r) -> o_init o < x) ->
       o_stats o = true -> (o_means o = true -> (forall m e, ~ In (Fin m, e) tmm) /\ Z.of_nat (o_nsim o) <= 4294967296) ->
       exists d' s' w', write_run_output N U toF srt r (Some d) o s w = (Raise AssertionError, (Some d', s'), w') /\
         in_ndead d' = Some (Z.of_nat (length (logl r))) /\
         in_nposterior d' = Some (Z.of_nat (if o_post o then length (theta r) else 0)) /\
         s' (file_of base root ".stats") = s (file_of base root ".stats") /\
         (* with statistics left out the same files are written, without an error *)
         exists d2 w2, write_run_output N U toF srt r (Some d)
                         (mkOpts (o_dead o) false (o_post o) (o_equals o) (o_means o) (o_nsim o) (o_init o)) s w =
                       (Ok tt, (Some d2, s'), w2)).
Proof.
  intros E F N U toF srt r o s w. split; [reflexivity|]. split; [|split].
  - intros d H. unfold write_run_output. destruct (in_root d); [|reflexivity]. destruct (in_base d); [|reflexivity].
    destruct H; discriminate.
  - intros d root base e w' H1 H2 H3 H4. unfold write_run_output. rewrite H1, H2. unfold write_files. rewrite H3.
    unfold sbind, slift at 1. rewrite H4. reflexivity.
  - intros d root base labs tmm k Hroot Hbase Hex Hc Hset Hk Hi Hs Hm.
    pose proof (complete_weighable _ _ _ Hc Hset) as Hw. destruct (PropEstimators.weighable_logw r None Hw) as (logw & Hl & _).
    assert (Hd : exists out, o_dead o = true -> run_dead_birth_array r (o_init o) false false w = (Ok out, w)).
    { destruct (o_dead o); [|exists []; discriminate].
      destruct (dead_birth_sound E r labs tmm (o_init o) false false w (complete_sound _ _ _ Hc) Hset (Hi eq_refl)) as (out & D & _). eauto. }
    destruct Hd as (out & Hd). unfold write_run_output. rewrite Hroot, Hbase.
    assert (Hg : o_equals o || o_post o = true -> get_w_rel r None = Ok (rel logw) /\ length (theta r) = length (logl r)).
    { intros _. unfold get_w_rel. rewrite Hl. split; [reflexivity|apply Hw]. }
    rewrite (write_fwd E F N U toF srt r o (path_join base root) d s w out w (rel logw) Hd (fun _ => eq_refl) Hg).
    rewrite (write_fwd E F N U toF srt r (mkOpts (o_dead o) false (o_post o) (o_equals o) (o_means o) (o_nsim o) (o_init o))
                       (path_join base root) d s w out w (rel logw) Hd (fun _ => eq_refl) Hg).
    cbn [ModelWrite.o_dead ModelWrite.o_post ModelWrite.o_equals]. cbv zeta.
    match goal with |- context [stats_stage toF srt r o (?a, ?b) ?c] => set (d1 := a); set (s1 := b); set (w1 := c) end.
    destruct (stage_values E F toF srt r labs tmm k o d1 s1 w1 Hc Hset Hk Hs Hm) as (d2 & w2 & D1 & D2 & D3 & D4 & D5 & _ & ->).
    destruct (C50_written F d2 s1) as [_ W2]. rewrite W2 by (right; right; rewrite D3; exact Hex).
    exists d2, s1, w2. split; [reflexivity|]. split; [auto|]. split; [rewrite D5; reflexivity|]. split.
    + unfold s1. destruct (o_equals o); [rewrite putf_other by (apply (file_neq base root); discriminate)|];
        (destruct (o_post o); [rewrite putf_other by (apply (file_neq base root); discriminate)|]);
        (destruct (o_dead o); [unfold dead_store; rewrite !putf_other by (apply (file_neq base root); discriminate)|]); auto.
    + exists d1, w1. reflexivity.
Qed.
Print Assumptions C75_errors.

(** ** Examples *)
Lemma int_field : forall z, field (show_int z).
Proof.
  intros z. split; [apply int_ne|]. intros c Hc. destruct (int_word z) as [_ W]. split; [apply W; auto|].
  intros ->. apply int_chars in Hc. discriminate.
Qed.
Definition tens (z : Z) : Z := 10 * (z / 10).
(** Formats which print exactly, and up to the last digit, with a space first. *)
Lemma print_form : forall f : Z -> Z, forall x, exists k tok,
    la " " ++ show_int (f x) = repeat " "%char k ++ tok /\ field tok /\ read_int tok = Some (f x).
Proof. intros f x. exists 1%nat, (show_int (f x)). split; [reflexivity|]. split; [apply int_field|apply read_show_int]. Qed.
Lemma print_weight : forall x : R, exists k tok, show_int 1 = repeat " "%char k ++ tok /\ field tok /\ Some 1%R = Some 1%R.
Proof. intros x. exists 0%nat, (show_int 1). split; [reflexivity|]. split; [apply int_field|reflexivity]. Qed.
Definition exact_fmt : savefmt :=
  mkFmt (fun z => la " " ++ show_int z) (fun _ => show_int 1) read_int (fun z => z) (fun _ => Some 1%R) (fun _ => 1%R)
        (print_form (fun z => z)) print_weight.
Definition coarse_fmt : savefmt :=
  mkFmt (fun z => la " " ++ show_int (tens z)) (fun _ => show_int 1) read_int tens (fun _ => Some 1%R) (fun _ => 1%R)
        (print_form tens) print_weight.

Definition no_files : store := fun _ => None.
Definition names_only (extra : list text) : stats_in int_floats :=
  @mkIn int_floats (Some (la "run")) (Some (la "chains")) None None None None None None None None None None None None None None extra.
Definition halves : uniforms (script_env []) := fun n s => (repeat (/ 2)%R n, s).
Definition to_int (x : fl) : num int_floats := match x with Some _ => 7 | None => 0 end.
Definition all_options : wopts := mkOpts true true true true true 100 (-1000).
Definition dead_only : wopts := mkOpts true false false false false 100 (-1000).

(** The hypotheses of the theorems hold for a run with two threads. *)
Example C73_hypotheses : complete_run PropCombine.run_other [1; 0; 1] [(NInf, 4); (NInf, 8)] /\
    settings PropCombine.run_other = None /\ rectangular PropCombine.run_other 1 /\ (2 <= length (logl PropCombine.run_other))%nat /\
    (forall x, In x (logl PropCombine.run_other) -> -1000 < x) /\
    increasing_on (rnd exact_fmt) (-1000 :: logl PropCombine.run_other) /\
    forall srt w, exists d' s' w', write_run_output exact_fmt halves to_int srt PropCombine.run_other (Some (names_only [])) all_options no_files w =
                                   (Ok tt, (Some d', s'), w').
Proof.
  split; [apply PropCombine.run_other_complete|]. split; [reflexivity|].
  assert (Hr : rectangular PropCombine.run_other 1) by (intros t Ht; repeat (destruct Ht as [<-|Ht]; [reflexivity|]); destruct Ht).
  assert (Hi : forall x, In x (logl PropCombine.run_other) -> -1000 < x).
  { intros x Hx. repeat (destruct Hx as [<-|Hx]; [lia|]). destruct Hx. }
  split; [auto|]. split; [cbn; lia|]. split; [auto|]. split; [intros x y _ _ H; exact H|].
  intros srt w. eapply C73_succeeds; eauto; try reflexivity.
  - apply PropCombine.run_other_complete.
  - intros _ _. split; [intros m e [H|[H|[]]]; discriminate|cbn; lia].
Qed.
(** What is read back; the file; and likelihoods rounded to equal ones, whose
    numbers of live points are lost. *)
Definition write_and_read (N : savefmt) (r : run) : res (list Z * list (list Z) * list Z) :=
  let '(_, (_, s'), w') := write_run_output N halves to_int (fun _ => []) r (Some (names_only [])) dead_only no_files
                                            (@mkW (script_env []) []%nat []) in
  match read_polychord_run int_floats N (la "run") (la "chains") false false false s' w' with
  | (Ok (r', _), _) => Ok (logl r', theta r', nlive_array r')
  | (Raise e, _) => Raise e
  end.
Example C73_example : write_and_read exact_fmt PropCombine.run_two = Ok ([1; 3; 5; 6], [[10]; [30]; [50]; [60]], [1; 1; 2; 1]) /\
    nlive_array PropCombine.run_two = [1; 1; 2; 1].
Proof. vm_compute. auto. Qed.
Example C73_ties : write_and_read coarse_fmt PropCombine.run_two = Ok ([0; 0; 0; 0], [[10]; [30]; [50]; [60]], [1; 1; 1; 1]).
Proof. vm_compute. reflexivity. Qed.
Example C73_files : 
    match write_run_output exact_fmt halves to_int (fun _ => []) PropCombine.run_other (Some (names_only [])) dead_only no_files
                           (@mkW (script_env []) []%nat []) with
    | (_, (_, s'), _) => s' (file_of (la "chains") (la "run") "_dead.txt") =
        Some (la " 20  2" ++ [newline] ++ la " 40  4" ++ [newline] ++ la " 80  8" ++ [newline])
    end.
Proof. vm_compute. reflexivity. Qed.
Example C73_flat_example : loadtxt exact_fmt (la " 4" ++ [newline] ++ la " 5" ++ [newline]) = Ok [[4]; [5]].
Proof. vm_compute. reflexivity. Qed.
(** One sample. *)
Definition run_one : run := mkRun [5] [[50]] [1] (Some [0]) (Some [(NInf, 5)]) None None.
Example C73_single_example : complete_run run_one [0] [(NInf, 5)] /\ length (logl run_one) = 1%nat.
Proof.
  split; [|reflexivity]. unfold complete_run, consistent, valid_columns, run_one.
  cbn [logl theta nlive_array thread_labels thread_min_max length map fst snd ext_opt].
  split.
  { split; [reflexivity|]. split; [reflexivity|]. split; [reflexivity|]. split; [reflexivity|]. split; [reflexivity|].
    split; [repeat constructor|]. split; [reflexivity|]. split. { intros x. cbn. lia. } split; [left; reflexivity|].
    intros k Hk. destruct k; [|lia]. split; [intros f m _ H; discriminate H|]. intros l (L1 & _). destruct l as [|l]; [reflexivity|cbn in L1; lia]. }
  split; [constructor; [intros []|constructor]|]. split; [intros k f Hk _; destruct k; [reflexivity|lia]|].
  split; [intros m e [H|[]]; discriminate|]. intros i Hi. destruct i; [reflexivity|lia].
Qed.
(** The numbers drawn for equally weighted samples, and an unknown key. *)
Example C74_hypotheses : length (fst (halves 3%nat [])) = 3%nat /\ forall u, In u (fst (halves 3%nat [])) -> (0 <= u < 1)%R.
Proof. split; [reflexivity|]. intros u Hu. apply repeat_spec in Hu. subst u. lra. Qed.
Example C75_example : exists d' s', 
    write_run_output exact_fmt halves to_int (fun _ => []) PropCombine.run_other (Some (names_only [la "title"]))
                     (mkOpts true true false false false 100 (-1000)) no_files (@mkW (script_env []) []%nat []) =
      (Raise AssertionError, (Some d', s'), @mkW (script_env []) []%nat []) /\ 
    in_ndead d' = Some 3 /\ s' (file_of (la "chains") (la "run") "_dead.txt") <> None.
Proof. eexists _, _. split; [vm_compute; reflexivity|]. split; [reflexivity|discriminate]. Qed.
