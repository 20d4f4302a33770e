(** C110: process_multinest_run with the files it reads. *)
From Coq Require Import List String Ascii Bool ZArith Lia Reals.
From Verif Require Import Base ModelRun ModelData ModelNames Envs ProofBase ProofMonad Spec SpecRun ProofDynesty PropSamplers
     ProofNames ModelStatsFile PropStatsFile ModelWrite ProofWrite PropWrite ModelMultinest.
From Verif Require ModelCalls ModelKeywords PropKeywords PropWidth.
Import ListNotations.
Local Open Scope list_scope.
Local Open Scope Z_scope.

(** The numbers in the two files. *)
Definition in_files (N : savefmt) (base root : text) (s : store) (dead live : list (list Z)) : Prop :=
  (exists f, s (file_of base root "dead-birth.txt") = Some f /\ loadtxt N f = Ok dead) /\
  (exists f, s (file_of base root "phys_live-birth.txt") = Some f /\ loadtxt N f = Ok live).
(** At least two rows each; room for the likelihood, the birth contour and the
    two (one) further columns. *)
Definition good_shape (dead live : list (list Z)) : Prop :=
  (2 <= length dead)%nat /\ (2 <= length live)%nat /\
  (forall x, In x dead -> (4 <= length x)%nat) /\ (forall y, In y live -> (3 <= length y)%nat).
(** Likelihood, parameters and birth contour in a row with [k] further columns. *)
Definition row_logl (k : nat) (x : list Z) : Z := nth (length x - (k + 2)) x 0.
Definition row_samp (k : nat) (x : list Z) : samp :=
  mkSamp (firstn (length x - (k + 2)) x) (row_logl k x) (nth (length x - (k + 1)) x 0).
(** All live points above all dead points. *)
Definition above (dead live : list (list Z)) : Prop :=
  forall x y, In x dead -> In y live -> row_logl 2 x < row_logl 1 y.

(** ** Proofs *)
Lemma loadtxt_widths : forall N f rows x, loadtxt N f = Ok rows -> In x rows -> length x = length (hd [] rows).
Proof.
  intros N f rows x H Hx. unfold loadtxt in H. destruct (mapM _ _) as [v|e]; [|discriminate]. cbn [rbind] in H.
  destruct (forallb _ v) eqn:Hf; [|discriminate]. injection H as <-. rewrite forallb_forall in Hf. apply Nat.eqb_eq, Hf. auto.
Qed.
Lemma drop_length : forall k x, length (drop_cols k x) = (length x - k)%nat.
Proof. intros k x. unfold drop_cols. rewrite firstn_length. lia. Qed.
Lemma nth_firstn_lt : forall A (d : A) n l i, (i < n)%nat -> nth i (firstn n l) d = nth i l d.
Proof. intros A d n. induction n as [|n IH]; intros [|x l] [|i] H; cbn; auto; try lia. apply IH. lia. Qed.
Lemma drop_second : forall k x, (k + 2 <= length x)%nat -> second_last (drop_cols k x) = row_logl k x.
Proof.
  intros k x H. unfold second_last, row_logl. rewrite drop_length. unfold drop_cols. rewrite nth_firstn_lt by lia. f_equal. lia.
Qed.
Lemma drop_samp : forall k x, (k + 2 <= length x)%nat -> samp_of_row (drop_cols k x) = row_samp k x.
Proof.
  intros k x H. unfold samp_of_row. rewrite drop_length. unfold row_samp, row_logl. f_equal.
  - unfold drop_cols at 1. rewrite drop_length. unfold drop_cols. rewrite firstn_firstn. f_equal. lia.
  - unfold drop_cols. rewrite nth_firstn_lt by lia. f_equal. lia.
  - unfold drop_cols. rewrite nth_firstn_lt by lia. f_equal. lia.
Qed.
Lemma hd_map : forall A B (f : A -> B) (l : list A) d e, l <> [] -> hd d (map f l) = f (hd e l).
Proof. intros A B f [|x l] d e H; [congruence|reflexivity]. Qed.
Lemma seconds : forall k rows, (forall x, In x rows -> (k + 2 <= length x)%nat) ->
    map second_last (map (drop_cols k) rows) = map (row_logl k) rows.
Proof. intros k rows H. rewrite map_map. apply map_ext_in. intros x Hx. apply drop_second. auto. Qed.
Lemma shape_dims : forall rows k, (2 <= length rows)%nat -> (2 <= k)%nat -> (forall x, In x rows -> (k <= length x)%nat) -> two_dims rows = true.
Proof.
  intros [|x [|y t]] k H Hk Hw; cbn in H; try lia. unfold two_dims. cbn [length hd]. apply andb_true_iff. split; apply Nat.ltb_lt; [lia|].
  specialize (Hw x (or_introl eq_refl)). lia.
Qed.
Lemma not_dims : forall rows, (length rows <= 1)%nat -> two_dims rows = false.
Proof. intros rows H. unfold two_dims. apply andb_false_iff. left. apply Nat.ltb_ge. auto. Qed.

Lemma read_rows_with : forall E p N root base s dead live (w : world E), in_files N base root s dead live ->
    read_multinest_with p N root base s w =
    (if negb (two_dims dead) then wraise IndexError
     else if negb (two_dims live) then wraise IndexError
     else
       let dead := map (drop_cols 2) dead in
       let live := map (drop_cols 1) live in
       if (length (hd [] dead) <? 2)%nat then wraise IndexError
       else if (length (hd [] live) <? 2)%nat then wraise IndexError
       else
         let* _ := wassert (max_list (map second_last dead) <? min_list (map second_last live)) in
         if (length (hd [] dead) =? length (hd [] live))%nat then
           let* r := p (map samp_of_row (dead ++ live)) in
           let* _ := wassert (forallb (fun mm => is_ninf (fst mm)) (get_tmm r)) in
           wret (r, (root, base))
         else wraise ValueError) w.
Proof.
  intros E p N root base s dead live w [(f & F1 & F2) (g & G1 & G2)]. unfold read_multinest_with.
  unfold file_of in F1, G1. unfold load. rewrite F1, G1, F2, G2. reflexivity.
Qed.
Lemma read_rows : forall E N root base da dw s dead live (w : world E), in_files N base root s dead live ->
    read_multinest_run N root base da dw s w =
    (if negb (two_dims dead) then wraise IndexError
     else if negb (two_dims live) then wraise IndexError
     else
       let dead := map (drop_cols 2) dead in
       let live := map (drop_cols 1) live in
       if (length (hd [] dead) <? 2)%nat then wraise IndexError
       else if (length (hd [] live) <? 2)%nat then wraise IndexError
       else
         let* _ := wassert (max_list (map second_last dead) <? min_list (map second_last live)) in
         if (length (hd [] dead) =? length (hd [] live))%nat then
           let* r := process_samples_array (map samp_of_row (dead ++ live)) da dw in
           let* _ := wassert (forallb (fun mm => is_ninf (fst mm)) (get_tmm r)) in
           wret (r, (root, base))
         else wraise ValueError) w.
Proof. intros E N root base da dw s dead live w Hf. apply read_rows_with. auto. Qed.
Lemma above_iff : forall dead live, dead <> [] -> live <> [] ->
    ((max_list (map (row_logl 2) dead) <? min_list (map (row_logl 1) live)) = true <-> above dead live).
Proof.
  intros dead live Hd Hl.
  destruct (max_list_spec (map (row_logl 2) dead)) as [M1 M2]; [destruct dead; [congruence|discriminate]|].
  destruct (min_list_spec (map (row_logl 1) live)) as [N1 N2]; [destruct live; [congruence|discriminate]|].
  rewrite Z.ltb_lt. split.
  - intros H x y Hx Hy. specialize (M2 (row_logl 2 x) ltac:(apply in_map; auto)). specialize (N2 (row_logl 1 y) ltac:(apply in_map; auto)). lia.
  - intros H. apply in_map_iff in M1 as (x & <- & Hx). apply in_map_iff in N1 as (y & <- & Hy). auto.
Qed.
Lemma read_shaped_with : forall E p N root base s dead live (w : world E), in_files N base root s dead live -> good_shape dead live ->
    read_multinest_with p N root base s w =
    (let* _ := wassert (max_list (map (row_logl 2) dead) <? min_list (map (row_logl 1) live)) in
     if (length (hd [] dead) - 2 =? length (hd [] live) - 1)%nat then
       let* r := p (map (row_samp 2) dead ++ map (row_samp 1) live) in
       let* _ := wassert (forallb (fun mm => is_ninf (fst mm)) (get_tmm r)) in
       wret (r, (root, base))
     else wraise ValueError) w.
Proof.
  intros E p N root base s dead live w Hf (S1 & S2 & S3 & S4). rewrite (read_rows_with _ _ _ _ _ _ _ _ _ Hf).
  rewrite (shape_dims dead 4), (shape_dims live 3) by (auto; lia). cbn [negb]. cbv zeta.
  assert (Hd : dead <> []) by (destruct dead; [cbn in S1; lia|discriminate]).
  assert (Hl : live <> []) by (destruct live; [cbn in S2; lia|discriminate]).
  rewrite !(hd_map _ _ _ _ [] []) by auto. rewrite !drop_length.
  assert (H1 : (4 <= length (hd [] dead))%nat) by (apply S3; destruct dead; [congruence|left; auto]).
  assert (H2 : (3 <= length (hd [] live))%nat) by (apply S4; destruct live; [congruence|left; auto]).
  replace (length (hd [] dead) - 2 <? 2)%nat with false by (symmetry; apply Nat.ltb_ge; lia).
  replace (length (hd [] live) - 1 <? 2)%nat with false by (symmetry; apply Nat.ltb_ge; lia).
  rewrite !seconds by (intros x Hx; first [apply S3|apply S4]; auto).
  rewrite map_app, !map_map.
  rewrite (map_ext_in _ (row_samp 2) dead) by (intros x Hx; apply drop_samp; apply S3; auto).
  rewrite (map_ext_in _ (row_samp 1) live) by (intros x Hx; apply drop_samp; apply S4; auto).
  reflexivity.
Qed.

Lemma read_shaped : forall E N root base da dw s dead live (w : world E), in_files N base root s dead live -> good_shape dead live ->
    read_multinest_run N root base da dw s w =
    (let* _ := wassert (max_list (map (row_logl 2) dead) <? min_list (map (row_logl 1) live)) in
     if (length (hd [] dead) - 2 =? length (hd [] live) - 1)%nat then
       let* r := process_samples_array (map (row_samp 2) dead ++ map (row_samp 1) live) da dw in
       let* _ := wassert (forallb (fun mm => is_ninf (fst mm)) (get_tmm r)) in
       wret (r, (root, base))
     else wraise ValueError) w.
Proof. intros E N root base da dw s dead live w Hf Hs. apply (read_shaped_with E (fun l => process_samples_array l da dw)); auto. Qed.

(** ** C110 *)
(** A missing file is an OSError. *)
Theorem C110_missing : forall E N root base da dw s (w : world E),
    (s (file_of base root "dead-birth.txt") = None -> read_multinest_run N root base da dw s w = (Raise OSError, w)) /\
    (forall f dead, s (file_of base root "dead-birth.txt") = Some f -> loadtxt N f = Ok dead ->
       s (file_of base root "phys_live-birth.txt") = None -> read_multinest_run N root base da dw s w = (Raise OSError, w)).
Proof.
  intros E N root base da dw s w. unfold file_of, read_multinest_run, read_multinest_with, load. split.
  - intros H. rewrite H. reflexivity.
  - intros f dead H1 H2 H3. rewrite H1, H2, H3. reflexivity.
Qed.
Print Assumptions C110_missing.

(** Less than two points in one of the files, or not enough columns: IndexError. *)
Theorem C110_shape : forall E N root base da dw s dead live (w : world E), in_files N base root s dead live ->
    ~ good_shape dead live -> read_multinest_run N root base da dw s w = (Raise IndexError, w).
Proof.
  intros E N root base da dw s dead live w Hf Hs. rewrite (read_rows _ _ _ _ _ _ _ _ _ _ Hf).
  destruct Hf as [(f & _ & F2) (g & _ & G2)].
  destruct (two_dims dead) eqn:Hd; [|reflexivity]. destruct (two_dims live) eqn:Hl; [|reflexivity]. cbn [negb]. cbv zeta.
  unfold two_dims in Hd, Hl. apply andb_true_iff in Hd as [D1 D2], Hl as [L1 L2]. apply Nat.ltb_lt in D1, D2, L1, L2.
  rewrite !(hd_map _ _ _ _ [] []) by (intros ->; cbn in *; lia). rewrite !drop_length.
  destruct (Nat.ltb_spec (length (hd [] dead) - 2) 2) as [|H1]; [reflexivity|].
  destruct (Nat.ltb_spec (length (hd [] live) - 1) 2) as [|H2]; [reflexivity|].
  exfalso. apply Hs. split; [auto|]. split; [auto|]. split.
  - intros x Hx. rewrite (loadtxt_widths _ _ _ _ F2 Hx). lia.
  - intros x Hx. rewrite (loadtxt_widths _ _ _ _ G2 Hx). lia.
Qed.
Print Assumptions C110_shape.

(** A live point which is not above all dead points: AssertionError, whether or
    not the numbers of parameters agree.  Different numbers of parameters:
    ValueError. *)
Theorem C110_rejected : forall E N root base da dw s dead live (w : world E), in_files N base root s dead live ->
    good_shape dead live ->
    (~ above dead live -> read_multinest_run N root base da dw s w = (Raise AssertionError, w)) /\
    (above dead live -> (exists x y, In x dead /\ In y live /\ (length x - 4 <> length y - 3)%nat) ->
     read_multinest_run N root base da dw s w = (Raise ValueError, w)).
Proof.
  intros E N root base da dw s dead live w Hf Hs. rewrite (read_shaped _ _ _ _ _ _ _ _ _ _ Hf Hs).
  destruct Hf as [(f & _ & F2) (g & _ & G2)]. destruct Hs as (S1 & S2 & S3 & S4).
  assert (Hd : dead <> []) by (destruct dead; [cbn in S1; lia|discriminate]).
  assert (Hl : live <> []) by (destruct live; [cbn in S2; lia|discriminate]).
  pose proof (above_iff dead live Hd Hl) as Ha. split.
  - intros Hn. destruct (max_list _ <? _); [exfalso; apply Hn, Ha; auto|reflexivity].
  - intros Hab (x & y & Hx & Hy & Hne). rewrite (proj2 Ha Hab).
    rewrite (wbind_run _ _ _ _ _ _ _ _ (wassert_run E _ w eq_refl)).
    pose proof (S3 x Hx). pose proof (S4 y Hy).
    rewrite (loadtxt_widths _ _ _ _ F2 Hx) in *. rewrite (loadtxt_widths _ _ _ _ G2 Hy) in *.
    replace (_ =? _)%nat with false by (symmetry; apply Nat.eqb_neq; lia). reflexivity.
Qed.
Print Assumptions C110_rejected.

(** Otherwise the result is that of process_samples_array for the samples of
    both files, with the names; or AssertionError if some thread does not start
    from the whole prior. *)
Theorem C110_run : forall E N root base da dw s dead live (w : world E), in_files N base root s dead live ->
    good_shape dead live -> above dead live ->
    (forall x y, In x dead -> In y live -> (length x - 4 = length y - 3)%nat) ->
    let out := read_multinest_run N root base da dw s w in
    match process_samples_array (map (row_samp 2) dead ++ map (row_samp 1) live) da dw w with
    | (Ok r, w') =>
        ((exists tmm m e, thread_min_max r = Some tmm /\ In (Fin m, e) tmm) -> out = (Raise AssertionError, w')) /\
        ((forall tmm x, thread_min_max r = Some tmm -> In x tmm -> fst x = NInf) -> out = (Ok (r, (root, base)), w'))
    | (Raise e, w') => out = (Raise e, w')
    end.
Proof.
  intros E N root base da dw s dead live w Hf Hs Hab Hw out. unfold out. rewrite (read_shaped _ _ _ _ _ _ _ _ _ _ Hf Hs).
  destruct Hs as (S1 & S2 & S3 & S4).
  assert (Hd : dead <> []) by (destruct dead; [cbn in S1; lia|discriminate]).
  assert (Hl : live <> []) by (destruct live; [cbn in S2; lia|discriminate]).
  rewrite (proj2 (above_iff dead live Hd Hl) Hab).
  rewrite (wbind_run _ _ _ _ _ _ _ _ (wassert_run E _ w eq_refl)).
  assert (Hx : In (hd [] dead) dead) by (destruct dead; [congruence|left; auto]).
  assert (Hy : In (hd [] live) live) by (destruct live; [congruence|left; auto]).
  specialize (Hw _ _ Hx Hy). pose proof (S3 _ Hx). pose proof (S4 _ Hy).
  replace (_ =? _)%nat with true by (symmetry; apply Nat.eqb_eq; lia).
  destruct (process_samples_array _ da dw w) as [[r|e] w'] eqn:P; [|unfold wbind; rewrite P; reflexivity].
  rewrite (wbind_run _ _ _ _ _ _ _ _ P). split.
  - intros (tmm & m & e & Ht & Hi). unfold get_tmm. rewrite Ht.
    replace (forallb _ tmm) with false; [reflexivity|]. symmetry. apply not_true_is_false. intros H1.
    rewrite forallb_forall in H1. specialize (H1 _ Hi). discriminate.
  - intros Hall. replace (forallb _ (get_tmm r)) with true; [reflexivity|]. symmetry. apply forallb_forall. intros x H1.
    unfold get_tmm in H1. destruct (thread_min_max r) as [tmm|] eqn:Et; [|destruct H1]. rewrite (Hall tmm x eq_refl H1). reflexivity.
Qed.
Print Assumptions C110_run.

(** Files written with np.savetxt: MultiNest's lines of dead and live points with
    [k] parameters.  What is read are the samples up to the rounding of the
    format. *)
Definition rounded (N : savefmt) (x : samp) : samp := mkSamp (map (rnd N) (s_theta x)) (rnd N (s_logl x)) (rnd N (s_birth x)).
Theorem C110_files : forall E N root base da dw s k dead live (w : world E),
    s (file_of base root "dead-birth.txt") = Some (savetxt N (map dead_line dead)) ->
    s (file_of base root "phys_live-birth.txt") = Some (savetxt N (map live_line live)) ->
    (2 <= length dead)%nat -> (2 <= length live)%nat ->
    (forall x, In x (map fst dead ++ map fst live) -> length (s_theta x) = k) ->
    let samples := map (rounded N) (map fst dead ++ map fst live) in
    let out := read_multinest_run N root base da dw s w in
    ((exists x y, In x (map fst dead) /\ In y (map fst live) /\ rnd N (s_logl y) <= rnd N (s_logl x)) ->
       out = (Raise AssertionError, w)) /\
    ((forall x y, In x (map fst dead) -> In y (map fst live) -> rnd N (s_logl x) < rnd N (s_logl y)) ->
       match process_samples_array samples da dw w with
       | (Ok r, w') =>
           ((exists tmm m e, thread_min_max r = Some tmm /\ In (Fin m, e) tmm) -> out = (Raise AssertionError, w')) /\
           ((forall tmm x, thread_min_max r = Some tmm -> In x tmm -> fst x = NInf) -> out = (Ok (r, (root, base)), w'))
       | (Raise e, w') => out = (Raise e, w')
       end).
Proof.
  intros E N root base da dw s k dead live w Hd Hl Nd Nl Hk samples out.
  assert (Hkd : forall p, In p dead -> length (s_theta (fst p)) = k) by (intros p Hp; apply Hk, in_app_iff; left; apply in_map; auto).
  assert (Hkl : forall p, In p live -> length (s_theta (fst p)) = k) by (intros p Hp; apply Hk, in_app_iff; right; apply in_map; auto).
  assert (Ld : forall p, In p dead -> length (dead_line p) = (k + 4)%nat).
  { intros [x [c d]] Hp. unfold dead_line. rewrite app_length. cbn [length]. rewrite <- (Hkd _ Hp). reflexivity. }
  assert (Ll : forall p, In p live -> length (live_line p) = (k + 3)%nat).
  { intros [x c] Hp. unfold live_line. rewrite app_length. cbn [length]. rewrite <- (Hkl _ Hp). reflexivity. }
  set (rd_ := map (map (rnd N)) (map dead_line dead)). set (rl_ := map (map (rnd N)) (map live_line live)).
  assert (Hf : in_files N base root s rd_ rl_).
  { split; eexists; (split; [eassumption|]).
    - apply (load_save N (k + 4)); [lia|]. intros r Hr. apply in_map_iff in Hr as (p & <- & Hp). auto.
    - apply (load_save N (k + 3)); [lia|]. intros r Hr. apply in_map_iff in Hr as (p & <- & Hp). auto. }
  assert (Hs : good_shape rd_ rl_).
  { unfold good_shape, rd_, rl_. rewrite !map_length. repeat split; auto; intros x Hx; apply in_map_iff in Hx as (y & <- & Hy);
      apply in_map_iff in Hy as (p & <- & Hp); rewrite map_length; [rewrite (Ld p Hp)|rewrite (Ll p Hp)]; lia. }
  assert (Sd : map (row_samp 2) rd_ = map (rounded N) (map fst dead)).
  { unfold rd_. rewrite !map_map. apply map_ext_in. intros p Hp. unfold row_samp, row_logl. rewrite map_length, (Ld p Hp).
    replace (k + 4 - (2 + 2))%nat with k by lia. replace (k + 4 - (2 + 1))%nat with (S k) by lia. destruct p as [x [c d]].
    pose proof (Hkd _ Hp) as Hx. cbn [fst] in *. unfold dead_line, rounded. rewrite map_app, <- Hx.
    rewrite <- (map_length (rnd N)). rewrite firstn_exact, !app_nth2 by lia. rewrite Nat.sub_diag.
    replace (S (length (map (rnd N) (s_theta x))) - length (map (rnd N) (s_theta x)))%nat with 1%nat by lia. reflexivity. }
  assert (Sl : map (row_samp 1) rl_ = map (rounded N) (map fst live)).
  { unfold rl_. rewrite !map_map. apply map_ext_in. intros p Hp. unfold row_samp, row_logl. rewrite map_length, (Ll p Hp).
    replace (k + 3 - (1 + 2))%nat with k by lia. replace (k + 3 - (1 + 1))%nat with (S k) by lia. destruct p as [x c].
    pose proof (Hkl _ Hp) as Hx. cbn [fst] in *. unfold live_line, rounded. rewrite map_app, <- Hx.
    rewrite <- (map_length (rnd N)). rewrite firstn_exact, !app_nth2 by lia. rewrite Nat.sub_diag.
    replace (S (length (map (rnd N) (s_theta x))) - length (map (rnd N) (s_theta x)))%nat with 1%nat by lia. reflexivity. }
  assert (Gd : forall v, In v (map (row_logl 2) rd_) <-> In v (map (fun x => rnd N (s_logl x)) (map fst dead))).
  { intros v. replace (map (row_logl 2) rd_) with (map s_logl (map (row_samp 2) rd_)) by (rewrite map_map; reflexivity).
    rewrite Sd, map_map. reflexivity. }
  assert (Gl : forall v, In v (map (row_logl 1) rl_) <-> In v (map (fun x => rnd N (s_logl x)) (map fst live))).
  { intros v. replace (map (row_logl 1) rl_) with (map s_logl (map (row_samp 1) rl_)) by (rewrite map_map; reflexivity).
    rewrite Sl, map_map. reflexivity. }
  split.
  - intros (x & y & Hx & Hy & Hle). apply (C110_rejected _ _ _ _ _ _ _ _ _ w Hf Hs). intros Hab.
    apply (in_map (fun x => rnd N (s_logl x))), Gd, in_map_iff in Hx as (x' & Ex & Hx').
    apply (in_map (fun x => rnd N (s_logl x))), Gl, in_map_iff in Hy as (y' & Ey & Hy').
    specialize (Hab _ _ Hx' Hy'). lia.
  - intros H.
    assert (Hab : above rd_ rl_).
    { intros x y Hx Hy. apply (in_map (row_logl 2)), Gd, in_map_iff in Hx as (x' & <- & Hx').
      apply (in_map (row_logl 1)), Gl, in_map_iff in Hy as (y' & <- & Hy'). auto. }
    assert (Hw : forall x y, In x rd_ -> In y rl_ -> (length x - 4 = length y - 3)%nat).
    { intros x y Hx Hy. apply in_map_iff in Hx as (x' & <- & Hx). apply in_map_iff in Hx as (p & <- & Hp).
      apply in_map_iff in Hy as (y' & <- & Hy). apply in_map_iff in Hy as (q & <- & Hq). rewrite !map_length, (Ld p Hp), (Ll q Hq). lia. }
    pose proof (C110_run _ _ _ _ da dw _ _ _ w Hf Hs Hab Hw) as R. cbv zeta in R. rewrite Sd, Sl, <- map_app in R. exact R.
Qed.
Print Assumptions C110_files.

(** The points of C12, one live point too few, and live points with a parameter
    more. *)
Definition mn_files (dead live : list (list Z)) : store := fun name =>
  if list_eq_dec Ascii.ascii_dec name (file_of (la "chains") (la "run") "dead-birth.txt") then Some (savetxt exact_fmt dead)
  else if list_eq_dec Ascii.ascii_dec name (file_of (la "chains") (la "run") "phys_live-birth.txt") then Some (savetxt exact_fmt live)
  else None.
Definition mn_read (s : store) (w : world (script_env [])) := read_multinest_run exact_fmt (la "run") (la "chains") true true s w.
Example C110_example : forall w : world (script_env []),
    mn_read (mn_files (map dead_line mn_dead) (map live_line mn_live)) w =
    (Ok (mkRun [1; 2; 3; 4; 5] [[10]; [20]; [30]; [40]; [50]] [3; 3; 3; 2; 1] (Some [0; 1; 2; 0; 1])
               (Some [(NInf, 4); (NInf, 5); (NInf, 3)]) None None, (la "run", la "chains")), w) /\
    mn_read (mn_files (map dead_line mn_dead) (map live_line (firstn 1 mn_live))) w = (Raise IndexError, w) /\
    mn_read (mn_files (map dead_line mn_dead) (map (cons 7) (map live_line mn_live))) w = (Raise ValueError, w) /\
    mn_read (mn_files [[1; 2; 3]; [4; 5; 6]] (map live_line mn_live)) w = (Raise IndexError, w) /\
    mn_read no_files w = (Raise OSError, w).
Proof. intros [r k]. vm_compute. repeat split; reflexivity. Qed.

(** ** Keywords *)
(** dup_assert and dup_warn are known, and go to process_samples_array.  An unknown
    keyword is a TypeError; all that is wrong with the files is noticed before. *)
Lemma with_ext : forall E p q N root base s (w : world E), (forall l w, p l w = q l w) ->
    read_multinest_with p N root base s w = read_multinest_with q N root base s w.
Proof.
  intros E p q N root base s w H. unfold read_multinest_with.
  apply PropWidth.bind_ext. intros dead w1 _. apply PropWidth.bind_ext. intros live w2 _.
  destruct (negb (two_dims dead)); auto. destruct (negb (two_dims live)); auto. cbv zeta.
  destruct (_ <? 2)%nat; auto. destruct (_ <? 2)%nat; auto. apply PropWidth.bind_ext. intros _ w3 _.
  destruct (_ =? _)%nat; auto. unfold wbind at 1. rewrite H. reflexivity.
Qed.
Lemma shape_with : forall E p N root base s dead live (w : world E), in_files N base root s dead live ->
    ~ good_shape dead live -> read_multinest_with p N root base s w = (Raise IndexError, w).
Proof.
  intros E p N root base s dead live w Hf Hs. rewrite (read_rows_with _ _ _ _ _ _ _ _ _ Hf).
  destruct Hf as [(f & _ & F2) (g & _ & G2)].
  destruct (two_dims dead) eqn:Hd; [|reflexivity]. destruct (two_dims live) eqn:Hl; [|reflexivity]. cbn [negb]. cbv zeta.
  unfold two_dims in Hd, Hl. apply andb_true_iff in Hd as [D1 D2], Hl as [L1 L2]. apply Nat.ltb_lt in D1, D2, L1, L2.
  rewrite !(hd_map _ _ _ _ [] []) by (intros ->; cbn in *; lia). rewrite !drop_length.
  destruct (Nat.ltb_spec (length (hd [] dead) - 2) 2) as [|H1]; [reflexivity|].
  destruct (Nat.ltb_spec (length (hd [] live) - 1) 2) as [|H2]; [reflexivity|].
  exfalso. apply Hs. split; [auto|]. split; [auto|]. split.
  - intros x Hx. rewrite (loadtxt_widths _ _ _ _ F2 Hx). lia.
  - intros x Hx. rewrite (loadtxt_widths _ _ _ _ G2 Hx). lia.
Qed.
Theorem C110_keywords : forall E N root base s kw (w : world E), NoDup (PropKeywords.keys kw) ->
    (PropKeywords.only ["dup_assert"; "dup_warn"]%string kw -> forall da dw,
       PropKeywords.is_value PropKeywords.as_bool kw "dup_assert" false da ->
       PropKeywords.is_value PropKeywords.as_bool kw "dup_warn" false dw ->
       read_multinest_run_kw N root base s kw w = read_multinest_run N root base da dw s w) /\
    (PropKeywords.unknown ["dup_assert"; "dup_warn"]%string kw ->
       ~ In "file_root"%string (PropKeywords.keys kw) -> ~ In "base_dir"%string (PropKeywords.keys kw) ->
       (s (file_of base root "dead-birth.txt") = None -> read_multinest_run_kw N root base s kw w = (Raise OSError, w)) /\
       (forall dead live, in_files N base root s dead live ->
          (~ good_shape dead live -> read_multinest_run_kw N root base s kw w = (Raise IndexError, w)) /\
          (good_shape dead live -> ~ above dead live -> read_multinest_run_kw N root base s kw w = (Raise AssertionError, w)) /\
          (good_shape dead live -> above dead live ->
             (forall x y, In x dead -> In y live -> (length x - 4 = length y - 3)%nat) ->
             read_multinest_run_kw N root base s kw w = (Raise TypeError, w)))).
Proof.
  intros E N root base s kw w Hn.
  assert (Hb : ~ In "file_root"%string (PropKeywords.keys kw) -> ~ In "base_dir"%string (PropKeywords.keys kw) ->
            read_multinest_run_kw N root base s kw w =
            read_multinest_with (fun samples => ModelKeywords.process_samples_array_kw samples kw) N root base s w).
  { intros H1 H2. unfold read_multinest_run_kw, ModelKeywords.bind. cbn [existsb]. rewrite !PropKeywords.has_key_no by auto. reflexivity. }
  split.
  - intros H da dw H1 H2. rewrite Hb; try (intros Hi; apply H in Hi; cbn in Hi; intuition congruence).
    unfold read_multinest_run. apply with_ext. intros l w1.
    apply (PropKeywords.C104_checks E kw da dw w1 Hn H H1 H2).
  - intros H H1 H2. rewrite (Hb H1 H2). clear Hb.
    assert (U : forall l (w1 : world E), ModelKeywords.process_samples_array_kw l kw w1 = (Raise TypeError, w1))
      by (intros l w1; apply PropKeywords.unknown_samples; auto).
    set (p := fun samples : list samp => ModelKeywords.process_samples_array_kw samples kw). split; [|intros dead live Hf; split; [|split]].
    + intros Hm. unfold read_multinest_with, load. unfold file_of in Hm. rewrite Hm. reflexivity.
    + intros Hs. apply (shape_with _ _ _ _ _ _ _ _ _ Hf Hs).
    + intros Hs Hab. rewrite (read_shaped_with _ p _ _ _ _ _ _ _ Hf Hs). destruct Hs as (S1 & S2 & _ & _).
      assert (Hd : dead <> []) by (destruct dead; [cbn in S1; lia|discriminate]).
      assert (Hl : live <> []) by (destruct live; [cbn in S2; lia|discriminate]).
      pose proof (above_iff dead live Hd Hl) as Ha. destruct (max_list _ <? _); [exfalso; apply Hab, Ha; auto|reflexivity].
    + intros Hs Hab Hw. rewrite (read_shaped_with _ p _ _ _ _ _ _ _ Hf Hs). destruct Hs as (S1 & S2 & S3 & S4).
      assert (Hd : dead <> []) by (destruct dead; [cbn in S1; lia|discriminate]).
      assert (Hl : live <> []) by (destruct live; [cbn in S2; lia|discriminate]).
      rewrite (proj2 (above_iff dead live Hd Hl) Hab).
      rewrite (wbind_run _ _ _ _ _ _ _ _ (wassert_run E _ w eq_refl)).
      assert (He : (length (hd [] dead) - 2 =? length (hd [] live) - 1)%nat = true).
      { destruct dead as [|x dead]; [congruence|]. destruct live as [|y live]; [congruence|]. cbn [hd].
        specialize (Hw x y (or_introl eq_refl) (or_introl eq_refl)). specialize (S3 x (or_introl eq_refl)). specialize (S4 y (or_introl eq_refl)).
        apply Nat.eqb_eq. lia. }
      rewrite He. unfold wbind at 1. unfold p. rewrite U. reflexivity.
Qed.
Print Assumptions C110_keywords.
Example C110_keywords_example :
  let kw := [("dup_warn"%string, ModelKeywords.OBool true)] in let bad := [("dup"%string, ModelKeywords.OBool true)] in
  NoDup (PropKeywords.keys kw) /\ PropKeywords.only ["dup_assert"; "dup_warn"]%string kw /\
  PropKeywords.is_value PropKeywords.as_bool kw "dup_assert" false false /\ PropKeywords.is_value PropKeywords.as_bool kw "dup_warn" false true /\
  PropKeywords.unknown ["dup_assert"; "dup_warn"]%string bad /\
  forall w : world (script_env []),
    read_multinest_run_kw exact_fmt (la "run") (la "chains") (mn_files (map dead_line mn_dead) (map live_line mn_live)) bad w = (Raise TypeError, w) /\
    read_multinest_run_kw exact_fmt (la "run") (la "chains") no_files bad w = (Raise OSError, w).
Proof.
  cbv zeta. split; [PropKeywords.distinct|]. split; [PropKeywords.known_keywords|]. split; [PropKeywords.not_given|]. split; [PropKeywords.given_key|].
  split; [exists "dup"%string; split; [cbn; auto|cbn; intuition discriminate]|]. intros [r k]. vm_compute. split; reflexivity.
Qed.
