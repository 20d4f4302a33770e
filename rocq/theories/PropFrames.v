(** C84: the rows of summary_df and of summary_df_from_array. *)
From Coq Require Import Reals String Ascii Lra.
From Verif Require Import Base ModelRun ModelBoot ModelParallel ModelReal ModelStats
     Spec SpecRun SpecReal ProofBase ProofMonad ProofReal ProofStats PropSummary ModelFrames.
Local Open Scope string_scope.
Local Open Scope list_scope.
Local Open Scope nat_scope.

(** ** C84: rows of a summary *)
(** Mean and standard deviation, then the root mean squared errors if wanted;
    true values, if wanted, are first; each value is followed by its
    uncertainty. *)
Definition rows_in_order (first : list (list fl)) (m mu s su : list fl) (last : list (list fl * list fl)) : rows label :=
  map (fun t => (("true values", "value"), t)) first ++
  [(("mean", "value"), m); (("mean", "uncertainty"), mu); (("std", "value"), s); (("std", "uncertainty"), su)] ++
  flat_map (fun p => [(("rmse", "value"), fst p); (("rmse", "uncertainty"), snd p)]) last.

Lemma map2_map : forall A B C (f : A -> B -> C) a b, map2 f a b = map (fun p => f (fst p) (snd p)) (combine a b).
Proof. unfold map2. intros. apply map_ext. intros []; reflexivity. Qed.
Lemma summary_cols : forall py3 n cols tv rm cs, Forall (fun c => length c = n) cols ->
    summary_df py3 n cols tv rm = Ok cs ->
    exists f, std_unc_factor py3 n = Ok f /\ (forall t, tv = Some t -> length t = length cols) /\
      map s_mean cs = map pd_mean cols /\ map s_std cs = map pd_std cols /\
      map s_mean_unc cs = map (fun c => fdiv (pd_std c) (lift1 sqrt (Some (INR n)))) cols /\
      map s_std_unc cs = map (fun c => fmul (pd_std c) f) cols /\
      (rm = true -> exists t, tv = Some t /\
         map (fun c => fst (get_rmse c)) cs = map fst (map2 rmse_and_unc cols t) /\
         map (fun c => snd (get_rmse c)) cs = map snd (map2 rmse_and_unc cols t)).
Proof.
  intros py3 n cols tv rm cs Hn H. unfold summary_df in H.
  assert (Htv : forall t, tv = Some t -> length t = length cols).
  { intros t ->. unfold assertb in H. destruct (Nat.eqb_spec (length t) (length cols)); auto. discriminate. }
  destruct (assertb _); [|discriminate]. cbn [rbind] in H.
  destruct (std_unc_factor py3 n) as [f|]; [|discriminate]. cbn [rbind] in H. exists f. split; auto. split; auto.
  destruct rm.
  - destruct tv as [t|]; [|discriminate]. injection H as <-. specialize (Htv t eq_refl).
    assert (G : forall A (g : colsum -> A) (h : list fl -> A), (forall x c, length c = n -> g (summary_column f (Some x) c) = h c) ->
              map g (map2 (fun t c => summary_column f (Some t) c) t cols) = map h cols).
    { intros A g h Hgh. clear - Hn Htv Hgh. revert t Htv. induction Hn as [|c cols Hc Hn IH]; intros [|x t] Hl; try discriminate; auto.
      change (g (summary_column f (Some x) c) :: map g (map2 (fun t c => summary_column f (Some t) c) t cols) = h c :: map h cols).
      rewrite Hgh by auto. f_equal. apply IH. cbn in Hl. lia. }
    split; [apply G; reflexivity|]. split; [apply G; reflexivity|].
    split; [apply G; intros x c Hc; cbn; rewrite Hc; reflexivity|]. split; [apply G; reflexivity|].
    intros _. exists t. split; auto. clear - Htv. revert t Htv.
    assert (K : forall t, length t = length cols ->
       map get_rmse (map2 (fun t c => summary_column f (Some t) c) t cols) = map2 rmse_and_unc cols t).
    { induction cols as [|c cols IH]; intros [|x t] Hl; try discriminate; auto.
      change (rmse_and_unc c x :: map get_rmse (map2 (fun t c => summary_column f (Some t) c) t cols) = rmse_and_unc c x :: map2 rmse_and_unc cols t).
      f_equal. apply IH. cbn in Hl. lia. }
    intros t Hl. rewrite <- (K t Hl), !map_map. auto.
  - injection H as <-. rewrite !map_map.
    split; [reflexivity|]. split; [reflexivity|].
    split; [apply map_ext_Forall; eapply Forall_impl; [|exact Hn]; intros c Hc; cbn; rewrite Hc; reflexivity|].
    split; [reflexivity|]. discriminate.
Qed.

(** The data frame returned by summary_df has exactly these rows, in this
    order, with the values of C57; without true values to include it is an
    AssertionError. *)
Theorem C84_summary_rows : forall py3 n cols tv it rm cs, Forall (fun c => length c = n) cols ->
    summary_df py3 n cols tv rm = Ok cs ->
    (it = true -> tv = None -> summary_frame py3 n cols tv it rm = Raise AssertionError) /\
    ((it = true -> tv <> None) ->
       exists first last, summary_frame py3 n cols tv it rm =
           Ok (rows_in_order first (map s_mean cs) (map s_mean_unc cs) (map s_std cs) (map s_std_unc cs) last) /\
         (it = true -> exists t, tv = Some t /\ first = [t]) /\ (it = false -> first = []) /\
         (rm = true -> last = [(map (fun c => fst (get_rmse c)) cs, map (fun c => snd (get_rmse c)) cs)]) /\
         (rm = false -> last = [])).
Proof.
  intros py3 n cols tv it rm cs Hn H.
  destruct (summary_cols _ _ _ _ _ _ Hn H) as (f & Hf & Htv & E1 & E2 & E3 & E4 & E5).
  assert (Ha : assertb match tv with Some t => length t =? length cols | None => true end = Ok tt).
  { destruct tv as [t|]; auto. rewrite (Htv t eq_refl), Nat.eqb_refl. auto. }
  split.
  - intros -> ->. unfold summary_frame. cbn [assertb rbind]. reflexivity.
  - intros Hit. exists (if it then match tv with Some t => [t] | None => [] end else []).
    exists (if rm then [(map (fun c => fst (get_rmse c)) cs, map (fun c => snd (get_rmse c)) cs)] else []).
    split.
    + unfold summary_frame. rewrite Ha. cbn [rbind].
      destruct it.
      * destruct tv as [t|]; [|exfalso; apply Hit; auto]. cbn -[std_unc_factor INR].
        rewrite Hf. cbn [rbind]. destruct rm.
        -- destruct (E5 eq_refl) as (t' & Ht & E6 & E7). injection Ht as <-.
           unfold rows_in_order. rewrite E1, E2, E3, E4, E6, E7. rewrite !map_map. reflexivity.
        -- unfold rows_in_order. rewrite E1, E2, E3, E4. rewrite !map_map. reflexivity.
      * cbn -[std_unc_factor INR].
        rewrite Hf. cbn [rbind]. destruct rm.
        -- destruct (E5 eq_refl) as (t' & Ht & E6 & E7). subst tv.
           unfold rows_in_order. rewrite E1, E2, E3, E4, E6, E7. rewrite !map_map. reflexivity.
        -- unfold rows_in_order. rewrite E1, E2, E3, E4. rewrite !map_map. reflexivity.
    + split; [intros ->; destruct tv as [t|]; [eauto|exfalso; apply Hit; auto]|].
      split; [intros ->; auto|]. split; intros ->; auto.
Qed.
Print Assumptions C84_summary_rows.
(** Errors are those of C57, or of missing true values. *)
Theorem C84_summary_errors : forall py3 n cols tv it rm e,
    summary_df py3 n cols tv rm = Raise e ->
    summary_frame py3 n cols tv it rm = Raise (if it && match tv with None => true | _ => false end then AssertionError else e).
Proof.
  intros py3 n cols tv it rm e H. unfold summary_df in H. unfold summary_frame.
  destruct (assertb _) as [u|e'] eqn:Ea; cbn [rbind] in *.
  - destruct it; [destruct tv as [t|]; [|reflexivity]|]; cbn -[std_unc_factor INR];
      (destruct (std_unc_factor py3 n) as [f|e'] eqn:Ef; cbn [rbind] in *; [|injection H as ->; reflexivity]).
    + destruct rm; [discriminate|discriminate].
    + destruct rm; [|discriminate]. destruct tv; [discriminate|]. injection H as <-. reflexivity.
  - destruct tv as [t|]; [|discriminate Ea]. rewrite andb_false_r. injection H as ->. reflexivity.
Qed.
Print Assumptions C84_summary_errors.
Example C84_summary_example : forall a b,
    exists f, summary_frame true 2 [[Some a; Some b]; [Some b; Some b]] (Some [Some 1%R; None]) true true = Ok f /\
      map fst f = [("true values", "value"); ("mean", "value"); ("mean", "uncertainty"); ("std", "value"); ("std", "uncertainty");
                   ("rmse", "value"); ("rmse", "uncertainty")]%string /\
      get_row label_eqb ("true values", "value")%string f = Ok [Some 1%R; None] /\
      summary_frame true 2 [[Some a; Some b]] None true false = Raise AssertionError /\
      summary_frame true 1 [[Some a]] None false false = Raise ZeroDivisionError.
Proof. intros a b. eexists. split; [reflexivity|]. repeat split; reflexivity. Qed.

(** ** summary_df_from_array *)
(** Summaries are of columns for axis 0, of rows for axis 1. *)
Theorem C84_from_array : forall py3 arr ncols names axis tv it rm,
    Forall (fun r => length r = ncols) arr ->
    let df := summary_df_from_array py3 arr ncols names axis tv it rm in
    (axis <> 0%Z -> axis <> 1%Z -> df = Raise AssertionError) /\
    (axis = 0%Z -> exists cols, length cols = ncols /\
       (forall i j, i < length arr -> j < ncols -> exists c r, nth_error cols j = Some c /\ nth_error arr i = Some r /\
          length c = length arr /\ nth_error c i = nth_error r j) /\
       df = if length names =? ncols then summary_frame py3 (length arr) cols tv it rm else Raise ValueError) /\
    (axis = 1%Z -> df = if length names =? length arr then summary_frame py3 ncols arr tv it rm else Raise ValueError).
Proof.
  intros py3 arr ncols names axis tv it rm Hr df. split; [|split].
  - intros H0 H1. unfold df, summary_df_from_array.
    destruct (Z.eqb_spec axis 0) as [|_]; [congruence|]. destruct (Z.eqb_spec axis 1) as [|_]; [congruence|]. reflexivity.
  - intros ->. exists (rows_of ncols arr). split; [apply rows_of_length|]. split.
    + intros i j Hi Hj. destruct (nth_error arr i) as [r|] eqn:Er; [|apply nth_error_None in Er; lia].
      exists (nth_row arr j), r. split; [apply nth_rows_of; auto|]. split; auto.
      unfold nth_row. rewrite map_length. split; auto. erewrite map_nth_error by eauto.
      rewrite Forall_forall in Hr. specialize (Hr r (nth_error_In _ _ Er)).
      destruct (nth_error r j) as [x|] eqn:Ej; [|apply nth_error_None in Ej; lia]. rewrite (nth_error_nth r j None Ej). auto.
    + unfold df, summary_df_from_array. cbn [Z.eqb orb assertb rbind]. rewrite rows_of_length. reflexivity.
  - intros ->. unfold df, summary_df_from_array. cbn [Z.eqb orb assertb rbind Pos.eqb]. reflexivity.
Qed.
Print Assumptions C84_from_array.
Example C84_from_array_example : forall a b c d e f,
    let arr := [[Some a; Some b]; [Some c; Some d]; [Some e; Some f]] in
    summary_df_from_array true arr 2 ["x"; "y"]%string 0 None false false =
      summary_frame true 3 [[Some a; Some c; Some e]; [Some b; Some d; Some f]] None false false /\
    summary_df_from_array true arr 2 ["x"; "y"; "z"]%string 1 None false false = summary_frame true 2 arr None false false /\
    summary_df_from_array true arr 2 ["x"; "y"; "z"]%string 0 None false false = Raise ValueError /\
    summary_df_from_array true arr 2 ["x"; "y"]%string 2 None false false = Raise AssertionError.
Proof. intros. repeat split; reflexivity. Qed.
