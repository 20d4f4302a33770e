(** C85: summary_df_from_multi. *)
From Coq Require Import Reals String Ascii Sorted.
From Verif Require Import Base ModelRun ModelBoot ModelParallel ModelReal ModelStats
     Spec SpecRun SpecReal ProofBase ProofMonad ProofReal ProofStats PropSummary ModelFrames ProofFrames PropFrames.
Local Open Scope string_scope.
Local Open Scope list_scope.
Local Open Scope nat_scope.

(** ** C85: summaries of groups of rows *)
(** [k] are the entries of the label [l] at the levels [keep]. *)
Definition group_of (names keep l k : list string) : Prop :=
  Forall2 (fun lev v => exists i, nth_error names i = Some lev /\ nth_error l i = Some v) keep k.
(** Label of a row of the result: that of the group, the statistic and the type
    of result.  If there is a level 'calculation type', its entry and the name
    of the statistic are joined. *)
Inductive labelled : list string -> list string -> label -> list string -> Prop :=
| lab_plain : forall keep k c r, ~ In "calculation type" keep -> labelled keep k (c, r) (k ++ [c; r])
| lab_calc : forall a b ka x kb c r, ~ In "calculation type" a -> ~ In "calculation type" b -> length a = length ka -> length b = length kb ->
    labelled (a ++ "calculation type" :: b) (ka ++ x :: kb) (c, r) (ka ++ kb ++ [String.append x (String.append " " c); r]).
(** Label of the row of true values: empty at all kept levels but the
    calculation type. *)
Definition true_label (keep : list string) : list string :=
  repeat "" (length keep - if in_dec string_dec "calculation type" keep then 1 else 0) ++ ["true values"; "value"].

Lemma existsb_in : forall x l, existsb (String.eqb x) l = true <-> In x l.
Proof.
  intros x l. rewrite existsb_exists. split; [intros (y & Hy & He); apply String.eqb_eq in He; subst; auto|].
  intros H. exists x. split; auto. apply String.eqb_refl.
Qed.
Lemma existsb_notin : forall x l, existsb (String.eqb x) l = false <-> ~ In x l.
Proof. intros x l. rewrite <- existsb_in. destruct (existsb _ _); intuition congruence. Qed.
Lemma code_nth : forall x l, In x l -> nth_error l (code (fun a b => String.eqb b a) l x) = Some x.
Proof.
  induction l as [|y l IH]; cbn; intros H; [tauto|]. destruct (String.eqb_spec x y) as [-> | Hn]; auto.
  cbn. apply IH. destruct H; congruence.
Qed.
Lemma level_ok : forall names lev i, level names lev = Ok i -> nth_error names i = Some lev.
Proof.
  intros names lev i H. unfold level in H. destruct (existsb _ _) eqn:E; [|discriminate]. injection H as <-.
  apply code_nth, existsb_in. auto.
Qed.
Lemma level_key : forall names keep pos l, NoDup names -> length l = length names -> mapM (level names) keep = Ok pos ->
    forall k, group_of names keep l k <-> k = map (fun i => nth i l "") pos.
Proof.
  intros names keep pos l Hd Hl. revert pos. induction keep as [|lev keep IH]; cbn [mapM]; intros pos H k.
  - injection H as <-. split; [inversion 1; auto|intros ->; constructor].
  - destruct (level names lev) as [i|] eqn:Ei; [|discriminate]. cbn [rbind] in H.
    destruct (mapM (level names) keep) as [ps|] eqn:Ep; [|discriminate]. cbn [rbind] in H. injection H as <-.
    apply level_ok in Ei. specialize (IH ps eq_refl). cbn [map].
    assert (Hi : i < length l) by (rewrite Hl; apply nth_error_Some; congruence).
    split.
    + inversion_clear 1 as [|? v ? ks (j & Hj & Hv) Hk]. f_equal; [|apply IH; auto].
      assert (i = j). { apply (proj1 (NoDup_nth_error names) Hd); [rewrite <- Hl; auto|congruence]. } subst j.
      symmetry. apply nth_error_nth. auto.
    + intros ->. constructor; [|apply IH; auto]. exists i. split; auto. apply nth_error_nth'. auto.
Qed.
Lemma combine_split : forall A B (a b : list A) (c d : list B), length a = length c -> combine (a ++ b) (c ++ d) = combine a c ++ combine b d.
Proof. induction a as [|x a IH]; destruct c; cbn; intros; try discriminate; auto. f_equal. auto. Qed.
Lemma filter_other : forall a ka, ~ In calculation_type a -> length a = length ka ->
    map snd (filter (fun p : string * string => negb (String.eqb (fst p) calculation_type)) (combine a ka)) = ka.
Proof.
  induction a as [|x a IH]; destruct ka as [|y ka]; cbn; intros Hn Hl; try discriminate; auto.
  destruct (String.eqb_spec x calculation_type) as [-> |]; [tauto|]. cbn. f_equal. apply IH; auto.
Qed.
Lemma filter_names : forall a, ~ In calculation_type a -> filter (fun k => negb (String.eqb k calculation_type)) a = a.
Proof.
  induction a as [|x a IH]; cbn; intros Hn; auto.
  destruct (String.eqb_spec x calculation_type) as [-> |]; [tauto|]. cbn. f_equal. apply IH; auto.
Qed.
Lemma code_here : forall a b x, ~ In x a -> code (fun a b => String.eqb b a) (a ++ x :: b) x = length a.
Proof.
  induction a as [|y a IH]; cbn; intros b x Hn; [rewrite String.eqb_refl; auto|].
  destruct (String.eqb_spec x y) as [-> |]; [tauto|]. f_equal. apply IH. tauto.
Qed.
Lemma multi_label_spec : forall keep k l, NoDup keep -> length keep = length k -> labelled keep k l (multi_label keep k l).
Proof.
  intros keep k [c r] Hd Hl. unfold multi_label. destruct (existsb (String.eqb calculation_type) keep) eqn:E.
  - apply existsb_in in E. apply in_split in E. destruct E as (a & b & ->). apply NoDup_remove in Hd. destruct Hd as [Hd Hn].
    assert (Ha : ~ In calculation_type a) by (intros H; apply Hn; apply in_or_app; auto).
    assert (Hb : ~ In calculation_type b) by (intros H; apply Hn; apply in_or_app; auto).
    rewrite app_length in Hl. cbn in Hl.
    assert (Hk : k = firstn (length a) k ++ skipn (length a) k) by (symmetry; apply firstn_skipn).
    assert (Hka : length a = length (firstn (length a) k)) by (rewrite firstn_length; lia).
    assert (Hkb : length (skipn (length a) k) = S (length b)) by (rewrite skipn_length; lia).
    set (ka := firstn (length a) k) in *. set (kk := skipn (length a) k) in *. destruct kk as [|x kb]; [discriminate|].
    cbn in Hkb. rewrite Hk. clearbody ka. clear Hk k Hl.
    rewrite code_here by auto. rewrite combine_split by auto. rewrite filter_app, map_app. cbn [combine filter fst snd].
    rewrite String.eqb_refl. cbn [negb]. rewrite !filter_other by (auto; lia).
    rewrite Hka, app_nth2, Nat.sub_diag by lia. cbn [nth]. rewrite <- app_assoc. apply lab_calc; auto; lia.
  - apply existsb_notin in E. apply lab_plain. auto.
Qed.
Lemma true_names : forall keep, NoDup keep ->
    map (fun n => if String.eqb n calculation_type then "true values" else "") (removelast (multi_names keep)) ++ ["value"] =
    true_label keep.
Proof.
  intros keep Hd. unfold multi_names, true_label.
  assert (R : forall (l : list string), removelast (l ++ [calculation_type; "result type"]) = l ++ [calculation_type]).
  { intros l. change [calculation_type; "result type"] with ([calculation_type] ++ ["result type"]).
    rewrite app_assoc. apply removelast_last. }
  rewrite R, map_app. cbn [map]. rewrite String.eqb_refl, <- app_assoc. cbn [app].
  assert (G : forall l, ~ In calculation_type l ->
     map (fun n => if String.eqb n calculation_type then "true values" else "") l = repeat "" (length l)).
  { induction l as [|x l IH]; cbn; intros H; auto. destruct (String.eqb_spec x calculation_type) as [-> |]; [tauto|]. f_equal. auto. }
  destruct (in_dec string_dec "calculation type" keep) as [Hi|Hi].
  - pose proof Hi as Hi'. apply (existsb_in calculation_type keep) in Hi'. rewrite Hi'.
    apply in_split in Hi. destruct Hi as (a & b & ->). apply NoDup_remove in Hd. destruct Hd as [Hd Hn].
    assert (Ha : ~ In calculation_type a) by (intros H; apply Hn; apply in_or_app; auto).
    assert (Hb : ~ In calculation_type b) by (intros H; apply Hn; apply in_or_app; auto).
    rewrite filter_app. cbn [filter]. change "calculation type" with calculation_type. rewrite String.eqb_refl. cbn [negb].
    rewrite !filter_names by auto. rewrite G by auto. rewrite !app_length. cbn [length].
    replace (length a + S (length b) - 1) with (length a + length b) by lia. auto.
  - pose proof Hi as Hi'. apply (existsb_notin calculation_type keep) in Hi'. rewrite Hi'. rewrite G by auto.
    rewrite Nat.sub_0_r. auto.
Qed.
Lemma joined_name : forall x c, In c ["mean"; "std"; "rmse"] -> String.append x (String.append " " c) <> "true values".
Proof.
  intros x c Hc H.
  cbn [In] in Hc.
  do 12 (destruct x as [|? x];
    [destruct Hc as [<-|[<-|[<-|[]]]]; discriminate H|
     try (injection H as _ H); try discriminate H]).
Qed.
Lemma summary_labels : forall py3 n cols tv rm f, Forall (fun c => length c = n) cols -> summary_frame py3 n cols tv false rm = Ok f ->
    Forall (fun p => In (fst (fst p)) ["mean"; "std"; "rmse"]) f.
Proof.
  intros py3 n cols tv rm f Hn H. destruct (summary_df py3 n cols tv rm) as [cs|e] eqn:E.
  - destruct (C84_summary_rows py3 n cols tv false rm cs Hn E) as (_ & G).
    destruct G as (fi & la & G & _ & G0 & _); [discriminate|]. rewrite G in H. injection H as <-. rewrite (G0 eq_refl).
    unfold rows_in_order. cbn [map app].
    do 4 (constructor; [cbn; auto|]). apply Forall_forall. intros x Hx. apply in_flat_map in Hx. destruct Hx as (y & _ & Hx).
    cbn in Hx. destruct Hx as [<-|[<-|[]]]; cbn; auto.
  - pose proof (C84_summary_errors py3 n cols tv false rm e E) as G. congruence.
Qed.
Lemma set_row_new : forall K (eqb : K -> K -> bool) k v d, Forall (fun p => eqb (fst p) k = false) d -> set_row eqb k v d = d ++ [(k, v)].
Proof.
  intros K eqb k v d H. unfold set_row.
  assert (E : existsb (fun p => eqb (fst p) k) d = false).
  { clear - H. induction H as [|p d Hp H IH]; cbn; auto. rewrite Hp. auto. }
  rewrite E. auto.
Qed.
Lemma rows_of_cols : forall ncols (vals : list (list fl)), Forall (fun c => length c = length vals) (rows_of ncols vals).
Proof. intros. unfold rows_of. apply Forall_map, Forall_forall. intros. apply nth_row_length. Qed.
Lemma mapM_F2 : forall A B (f : A -> res B) l m, mapM f l = Ok m -> Forall2 (fun x y => f x = Ok y) l m.
Proof.
  induction l as [|x l IH]; cbn [mapM]; intros m H; [injection H as <-; constructor|].
  destruct (f x) as [y|] eqn:E; [|discriminate]. cbn [rbind] in H. destruct (mapM f l) as [ys|]; [|discriminate].
  cbn [rbind] in H. injection H as <-. constructor; auto.
Qed.
Lemma mapM_raise : forall A B (f : A -> res B) l e, mapM f l = Raise e -> exists x, In x l /\ f x = Raise e.
Proof.
  induction l as [|x l IH]; cbn [mapM]; intros e H; [discriminate|].
  destruct (f x) as [y|] eqn:E; cbn [rbind] in H; [|injection H as ->; exists x; split; [left|]; auto].
  destruct (mapM f l) as [ys|]; cbn [rbind] in H; [discriminate|]. destruct (IH _ H) as (z & Hz & Ez). exists z. split; [right|]; auto.
Qed.
Lemma labelled_not_true : forall keep k l out, labelled keep k l out -> In (fst l) ["mean"; "std"; "rmse"] -> out <> true_label keep.
Proof.
  assert (G : forall A (a b : list A) (x y x' y' : A), a ++ [x; y] = b ++ [x'; y'] -> x = x').
  { intros A a b x y x' y' H. change [x; y] with ([x] ++ [y]) in H. change [x'; y'] with ([x'] ++ [y']) in H.
    rewrite !app_assoc in H. apply app_inj_tail in H. destruct H as [H _]. apply app_inj_tail in H. tauto. }
  intros keep k l out H Hc E. unfold true_label in E. inversion H; subst; cbn [fst] in Hc.
  - match goal with K : _ ++ _ = _ |- _ => apply G in K; subst end. cbn in Hc. intuition discriminate.
  - match goal with K : _ ++ _ = _ |- _ => rewrite app_assoc in K; apply G in K end. eapply joined_name; eauto.
Qed.
Definition group_keys (pos : list nat) (df : rows (list string)) : list (list string) :=
  map fst (sort_rows string_list_le (map (fun k => (k, tt))
    (nodup (list_eq_dec string_dec) (map (fun r => map (fun i => nth i (fst r) "") pos) df)))).
Lemma map_pair_fst : forall (l : list (list string)), map fst (map (fun k => (k, tt)) l) = l.
Proof. intros. rewrite map_map. apply map_id. Qed.
Lemma group_keys_spec : forall names keep pos df, NoDup names -> (forall r, In r df -> length (fst r) = length names) ->
    mapM (level names) keep = Ok pos ->
    StronglySorted before (group_keys pos df) /\
    (forall k, In k (group_keys pos df) <-> exists r, In r df /\ group_of names keep (fst r) k) /\
    (forall k, In k (group_keys pos df) -> length k = length keep).
Proof.
  intros names keep pos df Hd Hl Hp. unfold group_keys.
  set (ks := nodup (list_eq_dec string_dec) (map (fun r => map (fun i => nth i (fst r) "") pos) df)).
  set (s := sort_rows string_list_le (map (fun k => (k, tt)) ks)).
  assert (P : Permutation (map fst s) ks).
  { unfold s. rewrite <- (map_pair_fst ks) at 2. apply Permutation_map, sort_perm. }
  assert (Hi : forall k, In k ks <-> exists r, In r df /\ group_of names keep (fst r) k).
  { intros k. unfold ks. rewrite nodup_In, in_map_iff. split.
    - intros (r & <- & Hr). exists r. split; auto. eapply level_key; eauto.
    - intros (r & Hr & Hk). exists r. split; auto. symmetry. eapply level_key; eauto. }
  assert (Hlen : forall k, In k ks -> length k = length keep).
  { intros k Hk. apply Hi in Hk. destruct Hk as (r & _ & Hk). symmetry. eapply F2_length. exact Hk. }
  assert (Hs : StronglySorted (fun p q => string_list_le (fst p) (fst q) = true) s).
  { apply sort_sorted; [apply sle_total|apply sle_trans]. }
  assert (Hnd : NoDup (map fst s)) by (rewrite P; apply NoDup_nodup).
  assert (Hin : forall k, In k (map fst s) -> length k = length keep).
  { intros k Hk. apply Hlen. eapply Permutation_in; eauto. }
  split; [|split].
  - clear - Hs Hnd Hin. induction Hs as [|p s Hs IH Hf]; cbn in *; [constructor|].
    inversion_clear Hnd as [|? ? Hn Hnd']. constructor; [apply IH; auto|].
    apply Forall_forall. intros q Hq. apply in_map_iff in Hq. destruct Hq as (q' & <- & Hq).
    rewrite Forall_forall in Hf. apply sle_before; [| |apply Hf; auto].
    + rewrite (Hin (fst p)), (Hin (fst q')); auto. right. apply in_map; auto.
    + intros E. apply Hn. rewrite E. apply in_map; auto.
  - intros k. rewrite <- Hi. split; apply Permutation_in; [|symmetry]; auto.
  - auto.
Qed.
Lemma strings_eqb_eq : forall a b, strings_eqb a b = true <-> a = b.
Proof. intros. unfold strings_eqb. destruct (list_eq_dec _ _ _); split; congruence. Qed.

(** The result of summary_df_from_multi: the groups are those which occur, in
    increasing order; of each the summary (C84) of all its rows, in the order of
    the data; the row of true values is last. *)
Theorem C85_groups : forall py3 names ncols df inds tv it rm out,
    let keep := match inds with Some k => k | None => removelast names end in
    NoDup names -> NoDup keep -> (forall r, In r df -> length (fst r) = length names) ->
    summary_df_from_multi py3 names ncols df inds tv it rm = Ok out ->
    exists keys frames outs last,
      out = concat outs ++ last /\
      (it = true -> exists t, tv = Some t /\ last = [(true_label keep, t)]) /\ (it = false -> last = []) /\
      StronglySorted before keys /\
      (forall k, In k keys <-> exists r, In r df /\ group_of names keep (fst r) k) /\
      Forall2 (fun k f => exists p, (forall r, In r df -> p (fst r) = true <-> group_of names keep (fst r) k) /\
                 let vals := map snd (filter (fun r => p (fst r)) df) in
                 let cols := map (fun j => map (fun v => nth j v None) vals) (seq 0 ncols) in
                 summary_frame py3 (length vals) cols tv false rm = Ok f) keys frames /\
      Forall2 (fun kf o => Forall2 (fun r o => labelled keep (fst kf) (fst r) (fst o) /\ snd o = snd r) (snd kf) o)
              (combine keys frames) outs.
Proof.
  intros py3 names ncols df inds tv it rm out keep Hd Hk Hl H. unfold summary_df_from_multi in H. fold keep in H.
  destruct keep as [|k0 keep0] eqn:Ek; [discriminate|]. rewrite <- Ek in *. clear k0 keep0 Ek.
  destruct (mapM (level names) keep) as [pos|] eqn:Ep; [|discriminate]. cbn [rbind] in H.
  fold (group_keys pos df) in H. destruct (group_keys_spec names keep pos df Hd Hl Ep) as (S1 & S2 & S3).
  set (keys := group_keys pos df) in *. clearbody keys.
  destruct (mapM _ keys) as [groups|] eqn:Eg; [|discriminate]. cbn [rbind] in H. apply mapM_F2 in Eg.
  assert (G : exists frames,
      Forall2 (fun k f => exists p, (forall r, In r df -> p (fst r) = true <-> group_of names keep (fst r) k) /\
                 let vals := map snd (filter (fun r => p (fst r)) df) in
                 let cols := map (fun j => map (fun v => nth j v None) vals) (seq 0 ncols) in
                 summary_frame py3 (length vals) cols tv false rm = Ok f) keys frames /\
      Forall2 (fun kf o => Forall2 (fun r o => labelled keep (fst kf) (fst r) (fst o) /\ snd o = snd r) (snd kf) o)
              (combine keys frames) groups /\
      Forall (fun p => fst p <> true_label keep) (concat groups)).
  { clear H S1 S2. induction Eg as [|k g keys groups Hg Eg IH]; [exists []; repeat constructor|].
    destruct IH as (fs & I1 & I2 & I3); [intros; apply S3; right; auto|].
    match type of Hg with rbind ?X _ = _ => destruct X as [f|] eqn:Ef end; [|discriminate]. cbn [rbind] in Hg. injection Hg as <-.
    assert (Hk' : length keep = length k) by (symmetry; apply S3; left; auto).
    exists (f :: fs). split; [|split].
    - constructor; auto. exists (fun l => strings_eqb (map (fun i => nth i l "") pos) k). split.
      + intros r Hr. rewrite strings_eqb_eq. rewrite (level_key names keep pos (fst r) Hd (Hl r Hr) Ep). split; congruence.
      + exact Ef.
    - cbn [combine]. constructor; auto. cbn [fst snd]. clear - Hk Hk'. induction f as [|r f IH]; cbn; constructor; auto.
      cbn. split; auto. apply multi_label_spec; auto.
    - cbn [concat]. apply Forall_app. split; auto. apply Forall_map. cbn [fst].
      apply summary_labels in Ef; [|apply rows_of_cols]. eapply Forall_impl; [|exact Ef]. intros r Hr.
      eapply labelled_not_true; [apply multi_label_spec; auto|exact Hr]. }
  destruct G as (frames & G1 & G2 & G3).
  exists keys, frames, groups.
  assert (H' : (if it then match tv with
           | Some tv => Ok (set_row strings_eqb
                              (map (fun n => if String.eqb n calculation_type then "true values" else "")%string
                                   (removelast (multi_names keep)) ++ ["value"%string]) tv (concat groups))
           | None => Raise AssertionError
           end else Ok (concat groups)) = Ok out).
  { destruct groups; [discriminate|]. exact H. }
  clear H. rewrite true_names in H' by auto. destruct it.
  - destruct tv as [t|]; [|discriminate]. injection H' as <-. exists [(true_label keep, t)]. split.
    + apply set_row_new. eapply Forall_impl; [|exact G3]. intros p Hp.
      destruct (strings_eqb (fst p) (true_label keep)) eqn:E; auto. apply strings_eqb_eq in E. contradiction.
    + repeat split; eauto; try discriminate; apply S2.
  - injection H' as <-. exists []. rewrite app_nil_r. repeat split; auto; try discriminate; apply S2.
Qed.
Print Assumptions C85_groups.
(** Errors: no level to keep, a level which there is not, the error of the
    summary of a group, or true values missing.  A data frame without rows is
    a KeyError. *)
Theorem C85_errors : forall py3 names ncols df inds tv it rm,
    let keep := match inds with Some k => k | None => removelast names end in
    let r := summary_df_from_multi py3 names ncols df inds tv it rm in
    (keep = [] -> r = Raise ValueError) /\
    ((exists lev, In lev keep /\ ~ In lev names) -> r = Raise KeyError) /\
    (forall e, NoDup names -> (forall r, In r df -> length (fst r) = length names) -> keep <> [] -> incl keep names -> df <> [] ->
       r = Raise e ->
       (it = true /\ tv = None /\ e = AssertionError) \/
       exists k p, (exists r, In r df /\ group_of names keep (fst r) k) /\
                 (forall r, In r df -> p (fst r) = true <-> group_of names keep (fst r) k) /\
                 let vals := map snd (filter (fun r => p (fst r)) df) in
                 let cols := map (fun j => map (fun v => nth j v None) vals) (seq 0 ncols) in
                 summary_frame py3 (length vals) cols tv false rm = Raise e).
Proof.
  intros py3 names ncols df inds tv it rm keep r. unfold r, summary_df_from_multi. fold keep. clear r. split; [|split].
  - intros ->. auto.
  - intros (lev & Hi & Hn). destruct keep as [|k0 keep0] eqn:Ek; [destruct Hi|]. rewrite <- Ek in *. clear k0 keep0 Ek.
    replace (mapM (level names) keep) with (Raise KeyError : res (list nat)).
    + destruct keep; [destruct Hi|reflexivity].
    + symmetry. clear - Hi Hn. induction keep as [|l keep IH]; [destruct Hi|]. cbn [mapM].
      unfold level at 1. destruct (existsb (String.eqb l) names) eqn:E; cbn [rbind]; auto.
      destruct Hi as [->|Hi]; [apply existsb_in in E; contradiction|]. rewrite IH; auto.
  - intros e Hd Hl Hk Hinc Hdf H.
    assert (Ep : exists pos, mapM (level names) keep = Ok pos).
    { apply mapM_exists. intros lev Hlev. unfold level. rewrite (proj2 (existsb_in _ _) (Hinc _ Hlev)). eauto. }
    destruct Ep as (pos & Ep). rewrite Ep in H. cbn [rbind] in H. fold (group_keys pos df) in H.
    destruct (group_keys_spec names keep pos df Hd Hl Ep) as (S1 & S2 & S3).
    assert (Hne : group_keys pos df <> []).
    { destruct df as [|r0 df]; [congruence|]. intros E.
      assert (K : In (map (fun i => nth i (fst r0) "") pos) (group_keys pos (r0 :: df))).
      { apply S2. exists r0. split; [left; auto|]. eapply level_key; eauto. apply Hl. left; auto. }
      rewrite E in K. destruct K. }
    set (keys := group_keys pos df) in *. clearbody keys.
    assert (H' : (let! groups := mapM (fun k =>
          let vals := map snd (filter (fun r => strings_eqb (map (fun i => nth i (fst r) ""%string) pos) k) df) in
          let! f := summary_frame py3 (length vals) (rows_of ncols vals) tv false rm in
          Ok (map (fun p => (multi_label keep k (fst p), snd p)) f)) keys in
        match groups with [] => Raise KeyError | _ =>
        if it then match tv with
           | Some tv => Ok (set_row strings_eqb
                              (map (fun n => if String.eqb n calculation_type then "true values" else "")%string
                                   (removelast (multi_names keep)) ++ ["value"%string]) tv (concat groups))
           | None => Raise AssertionError
           end else Ok (concat groups) end) = Raise e).
    { destruct keep; [congruence|]. exact H. }
    clear H. destruct (mapM _ keys) as [groups|e'] eqn:Eg; cbn [rbind] in H'.
    + apply mapM_F2, F2_length in Eg. destruct groups; [destruct keys; [congruence|discriminate]|].
      destruct it; [|discriminate]. destruct tv; [discriminate|]. left. injection H' as <-. auto.
    + injection H' as ->. apply mapM_raise in Eg. destruct Eg as (k & Hin & Eg). right.
      exists k, (fun l => strings_eqb (map (fun i => nth i l "") pos) k). split; [apply S2; auto|]. split.
      * intros r Hr. rewrite strings_eqb_eq. rewrite (level_key names keep pos (fst r) Hd (Hl r Hr) Ep). split; congruence.
      * cbv zeta in Eg |- *. match type of Eg with rbind ?X _ = _ => destruct X as [f|e''] eqn:Ef end; [discriminate|].
        cbn [rbind] in Eg. injection Eg as ->. exact Ef.
Qed.
Print Assumptions C85_errors.
Example C85_example : forall a b c d,
    let df := [(["x"; "1"], [Some a]); (["b"; "1"], [Some b]); (["x"; "2"], [Some c]); (["b"; "2"], [Some d])] in
    let frame x y := summary_frame true 2 [[Some x; Some y]] (Some [Some 1%R]) false false in
    (exists fb fx, frame b d = Ok fb /\ frame a c = Ok fx /\
      summary_df_from_multi true ["calculation type"; "run"] 1 df None (Some [Some 1%R]) true false =
        Ok (map (fun p => ([String.append "b " (fst (fst p)); snd (fst p)], snd p)) fb ++
            map (fun p => ([String.append "x " (fst (fst p)); snd (fst p)], snd p)) fx ++ [(["true values"; "value"], [Some 1%R])]) /\
      summary_df_from_multi true ["kind"; "run"] 1 df (Some ["kind"]) (Some [Some 1%R]) true false =
        Ok (map (fun p => (["b"; fst (fst p); snd (fst p)], snd p)) fb ++
            map (fun p => (["x"; fst (fst p); snd (fst p)], snd p)) fx ++ [([""; "true values"; "value"], [Some 1%R])])) /\
    summary_df_from_multi true ["kind"; "run"] 1 df (Some ["other"]) None true false = Raise KeyError /\
    summary_df_from_multi true ["kind"; "run"] 1 df (Some []) None true false = Raise ValueError /\
    summary_df_from_multi true ["kind"; "run"] 1 df None None true false = Raise AssertionError /\
    summary_df_from_multi true ["kind"; "run"] 1 (tl df) None None false false = Raise ZeroDivisionError.
Proof. intros. split; [eexists _, _; repeat split; reflexivity|]. repeat split; reflexivity. Qed.
