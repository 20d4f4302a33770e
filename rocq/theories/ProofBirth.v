(** sample_less_than_condition and birth_inds_given_contours (C05 - C09). *)
From Verif Require Import Base ModelRun ModelData ProofBase ProofMonad Spec.

(** ** sample_less_than_condition *)
Definition hall (k : nat) (choices cond : list Z) : Prop :=
  forall i, (i < k)%nat -> (i < countb (fun x => (x <? nth i cond 0)%Z) choices)%nat.

Lemma in_avail : forall c choices k,
    In k (where_ (fun x => x <? c) choices) -> (k < length choices)%nat /\ nth k choices 0 < c.
Proof. intros. apply (in_where _ _ 0) in H as [H1 H2]. apply Z.ltb_lt in H2. auto. Qed.

Lemma slt_loop_spec : forall E k choices cond (w : world E),
    (k <= length cond)%nat -> (k <= length choices)%nat ->
    match slt_loop k choices cond w with
    | (Ok out, w') =>
        length out = k /\ (exists rest, Permutation (out ++ rest) choices) /\
        (forall i, (i < k)%nat -> nth i out 0 < nth i cond 0) /\ w_warn w' = w_warn w
    | (Raise e, _) => e = ValueError /\ (StronglySorted Z.le cond -> ~ hall k choices cond)
    end.
Proof.
  induction k as [|k IH]; intros choices cond w Hc Hch; simpl.
  - split; [auto|]. split; [exists choices; auto|]. split; auto. intros; lia.
  - destruct cond as [|c cond]; [simpl in Hc; lia|]. simpl in Hc.
    destruct (choice (where_ (fun x => x <? c) choices) w) as [[sel|e] w1] eqn:Hsel.
    + rewrite (wbind_run _ _ _ _ _ _ _ _ Hsel).
      destruct (choice_ok E _ (where_ (fun x => x <? c) choices) w) as (x & w1' & H1 & H2 & H3).
      { intros Hn. rewrite Hn in Hsel. discriminate. }
      rewrite Hsel in H1. inversion H1; subst x w1'. clear H1.
      apply in_avail in H2 as [Hlt Hval].
      specialize (IH (delete sel choices) cond w1 ltac:(lia)
                     ltac:(rewrite delete_length; lia)).
      pose proof (delete_perm _ 0 choices sel Hlt) as Hp.
      destruct (slt_loop k (delete sel choices) cond w1) as [[out|e] w2] eqn:Hr.
      * rewrite (wbind_run _ _ _ _ _ _ _ _ Hr). simpl.
        destruct IH as (I1 & [rest I2] & I3 & I4).
        split; [auto|]. split; [|split].
        -- exists rest. simpl. eapply Permutation_trans; [|apply Permutation_sym; exact Hp].
           constructor. auto.
        -- intros [|i] Hi; auto. apply I3. lia.
        -- congruence.
      * rewrite (wbind_raise _ _ _ _ _ _ _ _ Hr). destruct IH as [-> IH]. split; auto.
        intros Hs Hh. inversion Hs; subst. rewrite Forall_forall in H2.
        apply IH; auto. intros i Hi. specialize (Hh (S i) ltac:(lia)). simpl in Hh.
        rewrite (countb_perm _ _ _ _ Hp) in Hh. simpl in Hh.
        assert (Hle : c <= nth i cond 0) by (apply H2, nth_In; lia).
        replace (nth sel choices 0 <? nth i cond 0) with true in Hh
          by (symmetry; apply Z.ltb_lt; lia). lia.
    + rewrite (wbind_raise _ _ _ _ _ _ _ _ Hsel).
      apply choice_raise in Hsel as [-> Hn]. split; auto. intros _ Hh.
      specialize (Hh 0%nat ltac:(lia)). simpl in Hh.
      rewrite <- where_length, Hn in Hh. simpl in Hh. lia.
Qed.

Lemma allocation_hall : forall choices cond out,
    StronglySorted Z.le cond -> allocation choices cond out ->
    hall (Nat.min (length cond) (length choices)) choices cond.
Proof.
  intros choices cond out Hs (H1 & [rest H2] & H3) i Hi.
  rewrite <- (countb_perm _ _ _ _ H2), countb_app.
  assert (H : countb (fun x => x <? nth i cond 0) (firstn (S i) out) = S i).
  { rewrite countb_true; [apply firstn_length_le; lia|].
    intros x Hx. destruct (In_nth _ _ 0 Hx) as [k [Hk <-]].
    rewrite firstn_length_le in Hk by lia.
    rewrite <- (firstn_skipn (S i) out) in H3.
    specialize (H3 k ltac:(rewrite firstn_skipn; lia)).
    rewrite app_nth1 in H3 by (rewrite firstn_length_le; lia).
    apply Z.ltb_lt. pose proof (ssorted_le_nth_le cond k i Hs ltac:(lia)). lia. }
  rewrite <- (firstn_skipn (S i) out), countb_app. lia.
Qed.

Theorem slt_spec : forall E choices cond (w : world E),
    match sample_less_than_condition choices cond w with
    | (Ok out, w') => allocation choices cond out /\ w_warn w' = w_warn w
    | (Raise e, _) => e = ValueError /\
                      (StronglySorted Z.le cond -> ~ exists out, allocation choices cond out)
    end.
Proof.
  intros. unfold sample_less_than_condition.
  pose proof (slt_loop_spec E (Nat.min (length cond) (length choices)) choices cond w
                            ltac:(lia) ltac:(lia)) as H.
  destruct (slt_loop _ choices cond w) as [[out|e] w'].
  - destruct H as (H1 & H2 & H3 & H4). split; auto. split; [auto|]. split; auto.
    intros i Hi. apply H3. lia.
  - destruct H as [H1 H2]. split; auto. intros Hs [out Ho]. apply H2; auto.
    eapply allocation_hall; eauto.
Qed.

(** ** assign_at *)
Lemma assign_at_length : forall A idx (vals l : list A),
    length (assign_at idx vals l) = length l.
Proof.
  induction idx as [|i t IH]; destruct vals; simpl; intros; auto.
  rewrite IH, upd_length. auto.
Qed.
Lemma assign_at_other : forall A (d : A) idx vals l j,
    ~ In j idx -> nth j (assign_at idx vals l) d = nth j l d.
Proof.
  induction idx as [|i t IH]; destruct vals; simpl; intros; auto.
  rewrite IH by tauto. apply nth_upd_other. intuition.
Qed.
Lemma assign_at_in : forall A (d : A) idx vals l k,
    NoDup idx -> length vals = length idx ->
    (forall i, In i idx -> (i < length l)%nat) -> (k < length idx)%nat ->
    nth (nth k idx 0%nat) (assign_at idx vals l) d = nth k vals d.
Proof.
  induction idx as [|i t IH]; intros vals l k Hnd Hlen Hin Hk; [simpl in Hk; lia|].
  destruct vals as [|v vals]; [discriminate|]. inversion Hnd; subst. simpl in *.
  destruct k.
  - rewrite assign_at_other by auto. apply nth_upd_same. auto.
  - apply IH; auto; try lia. intros. rewrite upd_length. auto.
Qed.

(** ** one step *)
Lemma occurs_countb : forall c l, occurs c l = countb (Z.eqb c) l.
Proof.
  unfold occurs. induction l as [|x t IH]; simpl; auto.
  destruct (Z.eq_dec x c) as [->|Hn].
  - rewrite Z.eqb_refl, IH; auto.
  - replace (c =? x) with false by (symmetry; apply Z.eqb_neq; auto). auto.
Qed.

Definition deaths_on (c : Z) (logls : list Z) : list nat := where_ (Z.eqb c) logls.

(** Possible outcomes of a successful step for an unassigned point. *)
Inductive step_out (births logls : list Z) (bi : list (option Z)) (i : nat) (c : Z)
  : list (option Z) -> Prop :=
| so_single : forall d, deaths_on c logls = [d] ->
    step_out births logls bi i c (upd i (Some (Z.of_nat d)) bi)
| so_multi : forall vals,
    (1 < length (deaths_on c logls))%nat ->
    length vals = length (deaths_on c births) ->
    (forall v, In v vals -> exists d, In d (deaths_on c logls) /\ v = Z.of_nat d) ->
    ((length vals <= length (deaths_on c logls))%nat ->
       NoDup vals /\
       ((forall d, In d (deaths_on c logls) -> nth d births 0 <> c) \/
        (forall k, (k < length vals)%nat ->
                   nth k vals 0 < Z.of_nat (nth k (deaths_on c births) 0%nat)))) ->
    step_out births logls bi i c (assign_at (deaths_on c births) (map Some vals) bi).

Lemma NoDup_app_l : forall A (l m : list A), NoDup (l ++ m) -> NoDup l.
Proof.
  induction l as [|x t IH]; simpl; intros m H; [constructor|].
  inversion H; subst. constructor; eauto. intros Hc. apply H2, in_or_app; auto.
Qed.
Lemma NoDup_firstn : forall A k (l : list A), NoDup l -> NoDup (firstn k l).
Proof.
  intros. rewrite <- (firstn_skipn k l) in H. eapply NoDup_app_l; eauto.
Qed.
Lemma in_firstn : forall A k (l : list A) x, In x (firstn k l) -> In x l.
Proof. intros. rewrite <- (firstn_skipn k l). apply in_or_app; auto. Qed.

Lemma NoDup_map_of_nat : forall l, NoDup l -> NoDup (map Z.of_nat l).
Proof.
  induction 1; simpl; constructor; auto. intros Hc. apply in_map_iff in Hc as [y [H1 H2]].
  replace x with y in * by lia. tauto.
Qed.

(** Whether an allocation exists on contour [c] when it is needed. *)
Definition can_allocate (births logls : list Z) (c : Z) : Prop :=
  (forall d, In d (deaths_on c logls) -> nth d births 0 <> c) \/
  exists out, allocation (map Z.of_nat (deaths_on c logls))
                         (map Z.of_nat (deaths_on c births)) out.

Lemma deaths_sorted : forall c l, StronglySorted Z.le (map Z.of_nat (deaths_on c l)).
Proof.
  intros. apply ssorted_map. eapply ssorted_weaken; [|apply where_sorted].
  simpl; intros; lia.
Qed.

(** The list drawn for a tied contour. *)
Lemma draw_spec : forall E births logls c (w : world E),
    let dd := deaths_on c logls in
    let db := deaths_on c births in
    (1 < length dd)%nat -> (0 < length db)%nat ->
    match (if forallb (neqb c) (take 0 births dd)
           then shuffle (map Z.of_nat dd)
           else sample_less_than_condition (map Z.of_nat dd) (map Z.of_nat db)) w with
    | (Ok u, w') =>
        w_warn w' = w_warn w /\ u <> [] /\ NoDup u /\
        (Nat.min (length db) (length dd) <= length u <= length dd)%nat /\
        (forall v, In v u -> exists d, In d dd /\ v = Z.of_nat d) /\
        ((forall d, In d dd -> nth d births 0 <> c) \/
         (forall k, (k < length u)%nat -> nth k u 0 < Z.of_nat (nth k db 0%nat)))
    | (Raise e, _) => ~ can_allocate births logls c
    end.
Proof.
  intros E births logls c w dd db Hdd Hdb.
  assert (Hnd : NoDup (map Z.of_nat dd)) by (apply NoDup_map_of_nat, where_NoDup).
  destruct (forallb (neqb c) (take 0 births dd)) eqn:Hf.
  - destruct (shuffle_ok E _ (map Z.of_nat dd) w) as (u & w' & -> & Hp & Hw).
    assert (Hl : length u = length dd) by (rewrite (Permutation_length Hp), map_length; auto).
    repeat split; auto; try lia.
    + intros ->. simpl in Hl. lia.
    + eapply Permutation_NoDup; [apply Permutation_sym; eauto|auto].
    + intros v Hv. apply (Permutation_in _ Hp) in Hv. apply in_map_iff in Hv as [d [<- Hd]]; eauto.
    + left. intros d Hd He. rewrite forallb_forall in Hf.
      assert (Hx : neqb c (nth d births 0) = true).
      { apply Hf. unfold take. apply in_map_iff. eauto. }
      unfold neqb in Hx. rewrite He, Z.eqb_refl in Hx. discriminate.
  - pose proof (slt_spec E (map Z.of_nat dd) (map Z.of_nat db) w) as H.
    destruct (sample_less_than_condition (map Z.of_nat dd) (map Z.of_nat db) w) as [[u|e] w'].
    + destruct H as [(H1 & [rest H2] & H3) Hw]. rewrite !map_length in H1.
      assert (Hnd' : NoDup (u ++ rest)).
      { eapply Permutation_NoDup; [apply Permutation_sym; eauto|auto]. }
      repeat split; auto; try lia.
      * intros ->. simpl in H1. lia.
      * eapply NoDup_app_l; eauto.
      * intros v Hv. assert (Hv' : In v (map Z.of_nat dd)).
        { eapply Permutation_in; eauto. apply in_or_app; auto. }
        apply in_map_iff in Hv' as [d [<- Hd]]; eauto.
      * right. intros k Hk. specialize (H3 k Hk).
        rewrite (map_nth_in _ _ Z.of_nat 0 0%nat) in H3 by lia. auto.
    + destruct H as [_ H]. intros [Hc|Hc].
      * rewrite <- not_true_iff_false in Hf. apply Hf. apply forallb_forall.
        intros x Hx. unfold take in Hx. apply in_map_iff in Hx as [d [<- Hd]].
        apply Hc in Hd. unfold neqb. apply Bool.negb_true_iff, Z.eqb_neq. auto.
      * apply H; auto. apply deaths_sorted.
Qed.

Lemma birth_step_spec : forall E births logls bi i (w : world E),
    (i < length births)%nat -> nth i bi None = None ->
    let c := nth i births 0 in
    match birth_step births logls bi i w with
    | (Ok bi', w') =>
        step_out births logls bi i c bi' /\
        ((length (deaths_on c births) <= length (deaths_on c logls))%nat ->
         w_warn w' = w_warn w)
    | (Raise e, _) =>
        deaths_on c logls = [] \/
        ((1 < length (deaths_on c logls))%nat /\ ~ can_allocate births logls c)
    end.
Proof.
  intros E births logls bi i w Hlen Hi c. unfold birth_step. rewrite Hi. fold c.
  fold (deaths_on c logls). fold (deaths_on c births).
  assert (Hdb : (0 < length (deaths_on c births))%nat).
  { assert (In i (deaths_on c births)) by (apply (in_where _ _ 0); split; auto; apply Z.eqb_refl).
    destruct (deaths_on c births); simpl in *; [tauto|lia]. }
  destruct (deaths_on c logls) as [|d [|d' t]] eqn:Hdd.
  - unfold wbind, wassert, wlift, assertb. simpl. auto.
  - simpl. split; auto. apply so_single. auto.
  - rewrite <- Hdd in *.
    assert (Hgt : (1 < length (deaths_on c logls))%nat) by (rewrite Hdd; simpl; lia).
    clear Hdd d d' t.
    rewrite (wbind_run _ _ _ _ _ _ _ _ (wassert_true E _ w (proj2 (Nat.ltb_lt _ _) Hgt))).
    pose proof (draw_spec E births logls c w Hgt Hdb) as Hd.
    destruct (draw_deaths births c (deaths_on c logls) w) as [[u|e] w1] eqn:Hu.
    2: { rewrite (wbind_raise _ _ _ _ _ _ _ _ Hu).
         unfold draw_deaths in Hu. fold (deaths_on c births) in Hu.
         rewrite Hu in Hd. auto. }
    rewrite (wbind_run _ _ _ _ _ _ _ _ Hu).
    unfold draw_deaths in Hu. fold (deaths_on c births) in Hu. rewrite Hu in Hd.
    destruct Hd as (D1 & D2 & D3 & D4 & D5 & D6). clear Hu.
    unfold fill_deaths. destruct (length u <? length (deaths_on c births))%nat eqn:Hlt.
    + apply Nat.ltb_lt in Hlt.
      destruct (choice_n_ok E _ u (length (deaths_on c births) - length u)
                  (mkW (w_rng w1) (WMoreBirths :: w_warn w1)) D2) as (ex & w2 & C1 & C2 & C3 & _).
      destruct (shuffle_ok E _ (u ++ ex) w2) as (u' & w3 & S1 & S2 & _).
      assert (Hrun : wbind (E := E) (warn WMoreBirths) (fun _ =>
                wbind (choice_n u (length (deaths_on c births) - length u))
                      (fun extra => shuffle (u ++ extra))) w1 = (Ok u', w3)).
      { unfold wbind, warn. rewrite C1, S1. auto. }
      rewrite (wbind_run _ _ _ _ _ _ _ _ Hrun). simpl.
      assert (Hl : length u' = length (deaths_on c births)).
      { rewrite (Permutation_length S2), app_length. lia. }
      rewrite firstn_all2 by lia. split; [|lia].
      apply so_multi; auto; [|lia].
      intros v Hv. apply (Permutation_in _ S2), in_app_or in Hv as [Hv|Hv]; auto.
    + apply Nat.ltb_ge in Hlt. simpl. split; [|intros; congruence].
      apply so_multi; auto.
      * rewrite firstn_length_le; auto.
      * intros v Hv. apply in_firstn in Hv; auto.
      * intros _. split; [apply NoDup_firstn; auto|].
        destruct D6 as [D6|D6]; auto. right. intros k Hk.
        rewrite firstn_length_le in Hk by auto.
        rewrite <- (firstn_skipn (length (deaths_on c births)) u) in D6.
        specialize (D6 k). rewrite app_nth1 in D6 by (rewrite firstn_length_le; auto).
        apply D6. rewrite firstn_skipn. lia.
Qed.

Lemma check_logls_spec : forall E lg da dw (w : world E),
    match check_ns_run_logls lg da dw w with
    | (Ok _, w') => StronglySorted Z.le lg /\ w_rng w' = w_rng w /\ (da = true -> NoDup lg) /\
                    (NoDup lg \/ dw = false -> w' = w)
    | (Raise _, _) => ~ StronglySorted Z.le lg \/ (da = true /\ ~ NoDup lg)
    end.
Proof.
  intros. unfold check_ns_run_logls, wbind, wassert, wlift, assertb.
  destruct (list_eqb lg (take 0 lg (argsort E lg))) eqn:Ha.
  2: { left. rewrite <- (ascending_argsort E). rewrite Ha. discriminate. }
  rewrite ascending_argsort in Ha.
  pose proof (unique_length_NoDup lg) as Hu.
  assert (Hle : (length (unique lg) <= length lg)%nat).
  { apply NoDup_incl_length; [apply unique_NoDup|]. intros x. apply in_unique. }
  destruct da.
  - destruct (length lg - length (unique lg) =? 0)%nat eqn:He.
    + apply Nat.eqb_eq in He. repeat split; auto. intros _. apply Hu. lia.
    + right. split; auto. intros Hn. apply Hu in Hn. apply Nat.eqb_neq in He. lia.
  - destruct dw; [|simpl; repeat split; auto; discriminate].
    destruct (length lg - length (unique lg) =? 0)%nat eqn:He; simpl;
      repeat split; auto; try discriminate.
    intros [Hn|]; [|discriminate]. apply Hu in Hn. apply Nat.eqb_neq in He. lia.
Qed.

(** ** The whole loop *)
Section Loop.
  Variables births logls : list Z.
  Hypothesis Hlen : length births = length logls.
  Let n := length births.
  Let init := nth 0 births 0.

  (** What is known about the value assigned to point [i]. *)
  Definition good (i : nat) (v : Z) : Prop :=
    (nth i births 0 = init -> v = -1) /\
    (nth i births 0 <> init ->
       exists d, In d (deaths_on (nth i births 0%Z) logls) /\ v = Z.of_nat d) /\
    (nth i births 0 <> init ->
     (length (deaths_on (nth i births 0%Z) births)
      <= length (deaths_on (nth i births 0%Z) logls))%nat ->
     (1 < length (deaths_on (nth i births 0%Z) logls))%nat ->
     (forall d, In d (deaths_on (nth i births 0%Z) logls) -> nth d births 0 <> nth i births 0) \/
     v < Z.of_nat i).

  Definition inv (bi : list (option Z)) : Prop :=
    length bi = n /\
    (forall i v, (i < n)%nat -> nth i bi None = Some v -> good i v) /\
    (forall i, (i < n)%nat -> nth i births 0 = init -> nth i bi None = Some (-1)) /\
    (forall i j v, (i < n)%nat -> (j < n)%nat -> i <> j ->
       nth i births 0 = nth j births 0 -> nth i births 0 <> init ->
       (length (deaths_on (nth i births 0%Z) births)
        <= length (deaths_on (nth i births 0%Z) logls))%nat ->
       nth i bi None = Some v -> nth j bi None <> Some v).

  Lemma deaths_In : forall c l i,
      In i (deaths_on c l) <-> (i < length l)%nat /\ nth i l 0 = c.
  Proof.
    intros. unfold deaths_on. rewrite (in_where _ _ 0).
    rewrite Z.eqb_eq. intuition.
  Qed.

  Lemma init_inv : inv (map (fun x => if x =? init then Some (-1) else None) births).
  Proof.
    assert (Hn : forall i, (i < n)%nat ->
       nth i (map (fun x => if x =? init then Some (-1) else None) births) None =
       if nth i births 0 =? init then Some (-1) else None).
    { intros. rewrite (map_nth_in _ _ (fun x => if x =? init then Some (-1) else None) None 0); auto. }
    unfold inv. rewrite map_length. split; [auto|]. split; [|split].
    - intros i v Hi. rewrite Hn by auto. destruct (nth i births 0 =? init) eqn:He; [|discriminate].
      apply Z.eqb_eq in He. inversion 1; subst. split; [auto|]. split; intros; congruence.
    - intros i Hi He. rewrite Hn by auto. apply Z.eqb_eq in He as ->. auto.
    - intros i j v Hi Hj _ _ He _. rewrite Hn by auto.
      apply Z.eqb_neq in He as ->. discriminate.
  Qed.

  Lemma step_inv : forall bi bi' i, (i < n)%nat -> inv bi -> nth i bi None = None ->
      step_out births logls bi i (nth i births 0) bi' ->
      inv bi' /\ is_some (nth i bi' None) = true /\
      (forall j, is_some (nth j bi None) = true -> is_some (nth j bi' None) = true).
  Proof.
    intros bi bi' i Hi (I1 & I2 & I3 & I4) Hnone Hso.
    assert (Hni : nth i births 0 <> init) by (intros He; rewrite I3 in Hnone by auto; discriminate).
    set (c := nth i births 0) in *.
    destruct Hso as [d Hd|vals Hgt Hl Hin Hnd].
    - assert (Hdin : In d (deaths_on c logls)) by (rewrite Hd; left; auto).
      split; [|split].
      + unfold inv. rewrite upd_length. split; [auto|]. split; [|split].
        * intros j v Hj Hv. rewrite nth_upd in Hv.
          destruct ((j =? i) && (i <? length bi))%nat eqn:Hji; [|apply I2; auto].
          apply andb_prop in Hji as [Hji _]. apply Nat.eqb_eq in Hji as ->.
          inversion Hv; subst v. unfold good. fold c. split; [intros; congruence|]. split.
          -- intros _. exists d. auto.
          -- rewrite Hd. simpl. lia.
        * intros j Hj He. rewrite nth_upd_other; auto. intros ->. auto.
        * intros j k v Hj Hk Hjk He Hne Hle Hv Hu.
          destruct (Z.eq_dec (nth j births 0) c) as [Hc|Hc].
          -- rewrite Hc, Hd in Hle. simpl in Hle.
             assert (H2 : (1 < length (deaths_on c births))%nat).
             { assert (Hj' : In j (deaths_on c births)) by (apply deaths_In; auto).
               assert (Hk' : In k (deaths_on c births)) by (apply deaths_In; split; auto; congruence).
               destruct (deaths_on c births) as [|x [|y t]]; simpl in *; try tauto; try lia. }
             lia.
          -- rewrite nth_upd_other in Hv by (intros ->; auto).
             rewrite nth_upd_other in Hu by (intros ->; fold c in He; congruence).
             eapply (I4 j k); eauto.
      + rewrite nth_upd_same by (rewrite I1; auto). auto.
      + intros j Hj. rewrite nth_upd. destruct ((j =? i) && (i <? length bi))%nat; auto.
    - assert (Hidx : forall j, In j (deaths_on c births) -> (j < length bi)%nat)
        by (intros j Hj; apply deaths_In in Hj; rewrite I1; tauto).
      assert (Hndb : NoDup (deaths_on c births)) by apply where_NoDup.
      assert (Hval : forall k, (k < length vals)%nat ->
         nth (nth k (deaths_on c births) 0%nat)
             (assign_at (deaths_on c births) (map Some vals) bi) None = Some (nth k vals 0)).
      { intros k Hk. rewrite assign_at_in; auto; try (rewrite map_length; auto); try lia.
        rewrite (map_nth_in _ _ Some None 0) by auto. auto. }
      assert (Hget : forall j, (j < n)%nat -> nth j births 0 = c ->
         exists k, (k < length vals)%nat /\ nth k (deaths_on c births) 0%nat = j /\
          nth j (assign_at (deaths_on c births) (map Some vals) bi) None = Some (nth k vals 0)).
      { intros j Hj He. assert (Hj' : In j (deaths_on c births)) by (apply deaths_In; auto).
        destruct (In_nth _ _ 0%nat Hj') as [k [Hk Hk']]. exists k.
        rewrite Hl. split; auto. split; auto. rewrite <- Hk' at 1. apply Hval. lia. }
      assert (Hoth : forall j, nth j births 0 <> c ->
         nth j (assign_at (deaths_on c births) (map Some vals) bi) None = nth j bi None).
      { intros j Hj. apply assign_at_other. intros Hc. apply deaths_In in Hc. tauto. }
      split; [|split].
      + unfold inv. rewrite assign_at_length. split; [auto|]. split; [|split].
        * intros j v Hj Hv. destruct (Z.eq_dec (nth j births 0) c) as [Hc|Hc].
          -- destruct (Hget j Hj Hc) as (k & Hk & Hkj & Hk'). rewrite Hk' in Hv.
             inversion Hv; subst v. unfold good. rewrite Hc. split; [congruence|]. split.
             ++ intros _. apply Hin, nth_In; auto.
             ++ intros _ Hle _. rewrite <- Hl in Hle. destruct (Hnd Hle) as [_ [H|H]]; auto.
                right. rewrite <- Hkj. apply H; auto.
          -- rewrite Hoth in Hv by auto. apply I2; auto.
        * intros j Hj He. rewrite Hoth by congruence. auto.
        * intros j k v Hj Hk Hjk He Hne Hle Hv Hu.
          destruct (Z.eq_dec (nth j births 0) c) as [Hc|Hc].
          -- destruct (Hget j Hj Hc) as (a & Ha & Haj & Ha').
             destruct (Hget k Hk ltac:(congruence)) as (a' & Hb & Hbj & Hb').
             rewrite Ha' in Hv. rewrite Hb' in Hu. rewrite Hc, <- Hl in Hle.
             destruct (Hnd Hle) as [Hnd' _].
             assert (a = a').
             { apply (proj1 (NoDup_nth vals 0) Hnd'); auto. congruence. }
             congruence.
          -- rewrite Hoth in Hv by auto. rewrite Hoth in Hu by congruence.
             eapply (I4 j k); eauto.
      + destruct (Hget i Hi eq_refl) as (k & _ & _ & ->). auto.
      + intros j Hj. destruct (Z.eq_dec (nth j births 0) c) as [Hc|Hc].
        * destruct (lt_dec j n) as [Hjn|Hjn].
          -- destruct (Hget j Hjn Hc) as (k & _ & _ & ->). auto.
          -- rewrite (nth_overflow bi) in Hj by lia. discriminate.
        * rewrite Hoth by auto. auto.
  Qed.

  (** Conditions under which no step can fail / no warning is given. *)
  Definition feasible : Prop :=
    forall i, (i < n)%nat -> nth i births 0 <> init ->
      deaths_on (nth i births 0%Z) logls <> [] /\
      ((1 < length (deaths_on (nth i births 0%Z) logls))%nat ->
       can_allocate births logls (nth i births 0)).
  Definition enough : Prop :=
    forall i, (i < n)%nat -> nth i births 0 <> init ->
      (length (deaths_on (nth i births 0%Z) births)
       <= length (deaths_on (nth i births 0%Z) logls))%nat.

  Lemma loop_spec : forall E l bi (w : world E),
      (forall i, In i l -> (i < n)%nat) -> inv bi ->
      match wfoldM (birth_step births logls) l bi w with
      | (Ok bi', w') =>
          inv bi' /\
          (forall i, In i l -> is_some (nth i bi' None) = true) /\
          (forall j, is_some (nth j bi None) = true -> is_some (nth j bi' None) = true) /\
          (enough -> w_warn w' = w_warn w)
      | (Raise _, _) => ~ feasible
      end.
  Proof.
    induction l as [|i t IH]; intros bi w Hl Hinv; simpl.
    - split; [auto|]. split; [simpl; tauto|]. auto.
    - assert (Hi : (i < n)%nat) by (apply Hl; left; auto).
      destruct (nth i bi None) as [v|] eqn:Hnone.
      + assert (Hs : birth_step births logls bi i w = (Ok bi, w)).
        { unfold birth_step. rewrite Hnone. auto. }
        rewrite (wbind_run _ _ _ _ _ _ _ _ Hs).
        specialize (IH bi w ltac:(intros; apply Hl; right; auto) Hinv).
        destruct (wfoldM (birth_step births logls) t bi w) as [[bi'|] w']; auto.
        destruct IH as (J1 & J2 & J3 & J4). split; [exact J1|]. split; [|split; auto].
        intros j [<-|Hj]; auto. apply J3. rewrite Hnone; auto.
      + pose proof (birth_step_spec E births logls bi i w Hi Hnone) as Hs. simpl in Hs.
        assert (Hni : nth i births 0 <> init).
        { intros He. destruct Hinv as (_ & _ & I3 & _). rewrite I3 in Hnone by auto. discriminate. }
        destruct (birth_step births logls bi i w) as [[bi1|e] w1] eqn:Hb.
        * rewrite (wbind_run _ _ _ _ _ _ _ _ Hb). destruct Hs as [Hs1 Hs2].
          destruct (step_inv bi bi1 i Hi Hinv Hnone Hs1) as (K1 & K2 & K3).
          specialize (IH bi1 w1 ltac:(intros; apply Hl; right; auto) K1).
          destruct (wfoldM (birth_step births logls) t bi1 w1) as [[bi'|] w']; auto.
          destruct IH as (J1 & J2 & J3 & J4). split; [exact J1|]. split; [|split; auto].
          -- intros j [<-|Hj]; auto.
          -- intros He. rewrite J4 by auto. apply Hs2. apply He; auto.
        * rewrite (wbind_raise _ _ _ _ _ _ _ _ Hb). intros Hf.
          destruct (Hf i Hi Hni) as [F1 F2]. destruct Hs as [Hs|[H1 H2]]; auto.
  Qed.

  Lemma somes_all : forall (L : list (option Z)),
      forallb is_some L = true ->
      length (somes L) = length L /\
      forall i, (i < length L)%nat -> nth i L None = Some (nth i (somes L) 0).
  Proof.
    induction L as [|o t IH]; simpl; intros H.
    - split; auto. intros; lia.
    - apply andb_prop in H as [H1 H2]. destruct o as [z|]; [|discriminate].
      destruct (IH H2) as [J1 J2]. simpl. split; [rewrite J1; auto|].
      intros [|i] Hi; auto. apply J2. lia.
  Qed.


  Lemma birth_loop_spec : forall E (w : world E),
      match birth_loop births logls w with
      | (Ok b, w') =>
          length b = n /\
          (forall i, (i < n)%nat -> nth i births 0 <= nth i logls 0) /\
          (forall i, (i < n)%nat -> good i (nth i b 0)) /\
          (forall i j, (i < n)%nat -> (j < n)%nat -> i <> j ->
             nth i births 0 = nth j births 0 -> nth i births 0 <> init ->
             (length (deaths_on (nth i births 0%Z) births)
              <= length (deaths_on (nth i births 0%Z) logls))%nat ->
             nth i b 0 <> nth j b 0) /\
          (enough -> w_warn w' = w_warn w)
      | (Raise _, _) =>
          births = [] \/
          ~ (forall i, (i < n)%nat -> nth i births 0 <= nth i logls 0) \/ ~ feasible
      end.
  Proof.
    intros. unfold birth_loop.
    destruct (nil_dec _ births) as [Hbr|Hbr].
    { rewrite (wbind_raise _ _ _ _ _ w IndexError w); auto.
      unfold wlift. rewrite Hbr. auto. }
    rewrite (wbind_run _ _ _ _ _ w init w) by (unfold wlift; rewrite (item0_ok _ 0); auto).
    assert (Hall : forallb (fun '(x, y) => x <=? y) (combine births logls) = true <->
                   (forall i, (i < n)%nat -> nth i births 0 <= nth i logls 0)).
    { rewrite forallb_forall. split.
      - intros H i Hi. specialize (H (nth i births 0, nth i logls 0)).
        apply Z.leb_le, H. rewrite <- combine_nth by auto. apply nth_In.
        rewrite combine_length. unfold n in Hi. lia.
      - intros H [x y] Hxy. apply Z.leb_le. destruct (In_nth _ _ (0, 0) Hxy) as [k [Hk He]].
        rewrite combine_nth in He by auto. inversion He. apply H.
        rewrite combine_length in Hk. unfold n. lia. }
    destruct (forallb (fun '(x, y) => x <=? y) (combine births logls)) eqn:Hfa.
    2: { rewrite (wbind_raise _ _ _ _ _ w AssertionError w) by reflexivity.
         right; left. rewrite <- Hall. discriminate. }
    rewrite (wbind_run _ _ _ _ _ _ _ _ (wassert_true E _ _ eq_refl)).
    pose proof (loop_spec E (seq 0 (length births)) _ w
      ltac:(intros i Hi; apply in_seq in Hi; unfold n; lia) init_inv) as Hloop.
    match type of Hloop with context [wfoldM ?f ?l ?bi ?ww] =>
      destruct (wfoldM f l bi ww) as [[bi'|e] w2] eqn:Hl end.
    2: { rewrite (wbind_raise _ _ _ _ _ _ _ _ Hl). tauto. }
    rewrite (wbind_run _ _ _ _ _ _ _ _ Hl).
    destruct Hloop as (L1 & L2 & L3 & L4). destruct L1 as (I1 & I2 & I3 & I4).
    assert (Hsome : forallb is_some bi' = true).
    { apply forallb_forall. intros o Ho. destruct (In_nth _ _ None Ho) as [k [Hk <-]].
      apply L2. apply in_seq. unfold n in *. lia. }
    rewrite (wbind_run _ _ _ _ _ _ _ _ (wassert_true E _ _ Hsome)).
    simpl. destruct (somes_all bi' Hsome) as [S1 S2].
    split; [congruence|]. split; [apply Hall; auto|]. split; [|split; auto].
    - intros i Hi. apply I2; auto. apply S2. lia.
    - intros i j Hi Hj Hij He Hne Hle Heq.
      apply (I4 i j (nth i (somes bi') 0)); auto.
      + apply S2. lia.
      + rewrite Heq. apply S2. lia.
  Qed.

  Theorem birth_inds_spec : forall E da dw (w : world E),
      match birth_inds_given_contours births logls da dw w with
      | (Ok b, w') =>
          length b = n /\ StronglySorted Z.le logls /\
          (forall i, (i < n)%nat -> nth i births 0 <= nth i logls 0) /\
          (forall i, (i < n)%nat -> good i (nth i b 0)) /\
          (forall i j, (i < n)%nat -> (j < n)%nat -> i <> j ->
             nth i births 0 = nth j births 0 -> nth i births 0 <> init ->
             (length (deaths_on (nth i births 0%Z) births)
              <= length (deaths_on (nth i births 0%Z) logls))%nat ->
             nth i b 0 <> nth j b 0) /\
          w_rng w' = w_rng w /\
          ((NoDup logls \/ dw = false) -> enough -> w' = w)
      | (Raise _, _) =>
          births = [] \/ ~ StronglySorted Z.le logls \/ (da = true /\ ~ NoDup logls) \/
          ~ (forall i, (i < n)%nat -> nth i births 0 <= nth i logls 0) \/ ~ feasible
      end.
  Proof.
    intros. unfold birth_inds_given_contours.
    pose proof (check_logls_spec E logls da dw w) as Hc.
    destruct (check_ns_run_logls logls da dw w) as [[u|e] w1] eqn:Hck.
    2: { rewrite (wbind_raise _ _ _ _ _ _ _ _ Hck). tauto. }
    rewrite (wbind_run _ _ _ _ _ _ _ _ Hck). destruct Hc as (C1 & C2 & C3 & C4).
    rewrite (wbind_run _ _ _ _ _ w1 (w_rng w1) w1) by reflexivity.
    rewrite (wbind_run _ _ _ _ _ w1 tt (mkW (r_seed E 0) (w_warn w1))) by reflexivity.
    pose proof (birth_loop_spec E (mkW (r_seed E 0) (w_warn w1))) as Hl.
    destruct (birth_loop births logls (mkW (r_seed E 0) (w_warn w1))) as [[b|e] w2] eqn:Hb.
    2: { rewrite (wbind_raise _ _ _ _ _ _ _ _ Hb). tauto. }
    rewrite (wbind_run _ _ _ _ _ _ _ _ Hb).
    destruct Hl as (L1 & L2 & L3 & L4 & L5). unfold wbind, set_state, wret.
    repeat (split; [solve [simpl; auto]|]).
    intros Hd He. rewrite L5 by auto. simpl. rewrite <- (C4 Hd). apply world_eta.
  Qed.
End Loop.

(** ** Statements of C05 and C06 *)
Lemma deaths_occurs : forall c l, length (deaths_on c l) = occurs c l.
Proof. intros. unfold deaths_on. rewrite where_length, <- occurs_countb. auto. Qed.

Theorem births_returned : forall E births logls da dw (w : world E) b w',
    length births = length logls ->
    birth_inds_given_contours births logls da dw w = (Ok b, w') ->
    births_on_contours births logls b.
Proof.
  intros E births logls da dw w b w' Hlen H.
  pose proof (birth_inds_spec births logls Hlen E da dw w) as Hs. rewrite H in Hs.
  destruct Hs as (H1 & _ & _ & H2 & _). split; auto.
  intros i Hi. destruct (H2 i Hi) as (G1 & G2 & _). split; auto.
  intros Hne. destruct (G2 Hne) as (d & Hd & ->). apply (in_where _ _ 0) in Hd as [Hd He].
  apply Z.eqb_eq in He. rewrite Nat2Z.id. split; [lia|auto].
Qed.

Theorem births_before_deaths : forall E births logls da dw (w : world E) b w',
    length births = length logls ->
    birth_inds_given_contours births logls da dw w = (Ok b, w') ->
    (forall c, c <> nth 0 births 0 -> (1 < occurs c logls)%nat ->
               (occurs c births <= occurs c logls)%nat) ->
    forall i, (i < length births)%nat ->
      (nth i b 0 < Z.of_nat i \/
       (nth i births 0 = nth i logls 0 /\ nth i b 0 = Z.of_nat i /\
        occurs (nth i logls 0%Z) logls = 1%nat)) /\
      (forall j, (j < length births)%nat -> i <> j -> nth i births 0 = nth j births 0 ->
         nth i births 0 <> nth 0 births 0 -> (1 < occurs (nth i births 0%Z) logls)%nat ->
         nth i b 0 <> nth j b 0).
Proof.
  intros E births logls da dw w b w' Hlen H Hocc i Hi.
  pose proof (birth_inds_spec births logls Hlen E da dw w) as Hs. rewrite H in Hs.
  destruct Hs as (H1 & Hsort & Hle & H2 & H3 & _). split.
  - destruct (H2 i Hi) as (G1 & G2 & G3).
    destruct (Z.eq_dec (nth i births 0) (nth 0 births 0)) as [He|Hne]; [left; rewrite G1; auto; lia|].
    destruct (G2 Hne) as (d & Hd & Hv). pose proof Hd as Hd'.
    apply (in_where _ _ 0) in Hd as [Hd He]. apply Z.eqb_eq in He.
    assert (Hdi : (d <= i)%nat \/ (i < d)%nat) by lia.
    assert (Hcase : (length (deaths_on (nth i births 0%Z) logls) <= 1)%nat \/
                    (1 < length (deaths_on (nth i births 0%Z) logls))%nat) by lia.
    destruct Hcase as [Hone|Hmany].
    + (* unique death *)
      assert (Huniq : forall j, (j < length logls)%nat -> nth j logls 0 = nth i births 0 -> j = d).
      { intros j Hj Hjb. assert (Hj' : In j (deaths_on (nth i births 0) logls))
          by (apply (in_where _ _ 0); split; auto; apply Z.eqb_eq; auto).
        destruct (deaths_on (nth i births 0) logls) as [|x [|y t]]; simpl in *; try lia; tauto. }
      destruct (Z.eq_dec (nth i births 0) (nth i logls 0)) as [Hself|Hself].
      * right. assert (d = i) by (symmetry; apply Huniq; auto; lia). subst d.
        split; auto. split; auto. rewrite <- Hself, <- deaths_occurs.
        destruct (deaths_on (nth i births 0) logls); simpl in *; [tauto|lia].
      * left. rewrite Hv. apply Nat2Z.inj_lt.
        destruct (le_lt_dec i d) as [Hid|]; auto. exfalso.
        assert (nth i logls 0 <= nth d logls 0) by (apply ssorted_le_nth_le; auto).
        specialize (Hle i Hi). lia.
    + assert (Hnb : (length (deaths_on (nth i births 0%Z) births)
                     <= length (deaths_on (nth i births 0%Z) logls))%nat).
      { rewrite !deaths_occurs in *. apply Hocc; auto. }
      destruct (G3 Hne Hnb Hmany) as [Hnone|Hlt]; [|left; auto].
      left. rewrite Hv. apply Nat2Z.inj_lt. destruct (le_lt_dec i d) as [Hid|]; auto. exfalso.
      assert (nth i logls 0 <= nth d logls 0) by (apply ssorted_le_nth_le; auto).
      specialize (Hle i Hi). apply (Hnone i); auto. apply (in_where _ _ 0). split; [lia|].
      apply Z.eqb_eq. lia.
  - intros j Hj Hij Hbb Hne Hmany. apply H3; auto. rewrite !deaths_occurs. apply Hocc; auto.
Qed.
