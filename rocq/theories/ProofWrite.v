(** Files written by write_run_output, read by process_polychord_run (C73-C75). *)
From Coq Require Import List String Ascii Bool ZArith Lia Reals.
From Verif Require Import Base ModelRun ModelData ModelBoot ModelReal ModelStats ModelPlots ModelNames
     ProofBase ProofMonad ProofDet ProofBoot Spec SpecRun ProofProcess ProofDead ProofMulti ProofDummy ProofDummy2
     ProofNames ModelStatsFile ProofStatsFile PropStatsFile ModelWrite.
Import ListNotations.
Local Open Scope list_scope.
Local Open Scope Z_scope.

(** ** savetxt and loadtxt *)
Lemma field_word : forall t, field t -> a_word t.
Proof. intros t [H1 H2]. split; auto. intros c Hc. apply H2; auto. Qed.
Lemma before_hash_id : forall l, ~ In "#"%char l -> before_hash l = l.
Proof.
  induction l as [|c t IH]; intros H; auto. cbn [before_hash].
  destruct (Ascii.eqb_spec c "#") as [->|Hc]; [exfalso; apply H; left; auto|].
  f_equal. apply IH. intros Hn. apply H. right; auto.
Qed.

(** The words of a printed row. *)
Definition printed (p : text) (t : text) : Prop := exists k, p = repeat " "%char k ++ t /\ field t.
Lemma split_printed : forall ps ts, Forall2 printed ps ts ->
    forall c rest, is_ws c = true -> split_ws (join_sp ps ++ c :: rest) = ts ++ split_ws rest.
Proof.
  intros ps ts H. induction H as [|p t ps ts (k & -> & Hf) H IH]; intros c rest Hc.
  - cbn. apply split_space. auto.
  - destruct ps as [|p2 ps].
    + inversion H; subst. cbn [join_sp]. rewrite <- app_assoc, split_spaces, split_word by (auto; apply field_word; auto). auto.
    + change (join_sp ((repeat " "%char k ++ t) :: p2 :: ps)) with ((repeat " "%char k ++ t) ++ " "%char :: join_sp (p2 :: ps)).
      rewrite <- !app_assoc, split_spaces. cbn [app]. rewrite split_word by (auto; apply field_word; auto).
      rewrite IH by auto. auto.
Qed.
Lemma printed_chars : forall ps ts c, Forall2 printed ps ts -> In c (join_sp ps) -> c <> newline /\ c <> "#"%char.
Proof.
  intros ps ts c H. induction H as [|p t ps ts (k & -> & Hf) H IH]; intros Hin; [destruct Hin|].
  assert (Hp : In c (repeat " "%char k ++ t) -> c <> newline /\ c <> "#"%char).
  { intros Hc. apply in_app_or in Hc as [Hc|Hc].
    - apply repeat_spec in Hc. subst c. split; discriminate.
    - destruct Hf as [_ Hf]. destruct (Hf c Hc) as [F1 F2]. split; auto. intros ->. discriminate. }
  destruct ps as [|p2 ps]; [auto|].
  change (join_sp ((repeat " "%char k ++ t) :: p2 :: ps)) with ((repeat " "%char k ++ t) ++ " "%char :: join_sp (p2 :: ps)) in Hin.
  apply in_app_or in Hin as [Hin|[<-|Hin]]; auto. split; discriminate.
Qed.

Lemma load_lines : forall N rows toks, Forall2 (Forall2 printed) rows toks ->
    (forall t, In t toks -> t <> []) ->
    loadtxt N (text_lines (map join_sp rows)) =
    (let! v := mapM (mapM (fun w => value (rd N w))) toks in
     if forallb (fun r => (length r =? length (hd [] v))%nat) v then Ok v else Raise ValueError).
Proof.
  intros N rows toks H Hne. unfold loadtxt, text_lines.
  rewrite readlines_lines.
  2: { intros l Hl Hn. apply in_map_iff in Hl as (ps & <- & Hps). apply In_nth_error in Hps as [i Hi].
       clear Hne. revert i Hi. induction H as [|a b l m Hab H IH]; intros [|i] Hi; cbn in Hi; try discriminate.
       - injection Hi as ->. destruct (printed_chars _ _ _ Hab Hn) as [Hc _]. congruence.
       - eauto. }
  assert (Hw : filter (fun l => negb (length l =? 0)%nat)
                 (map (fun l => split_ws (before_hash l)) (map with_nl (map join_sp rows))) = toks); [|rewrite Hw; auto].
  induction H as [|a b l m Hab H IH]; auto. cbn [map].
  rewrite before_hash_id.
  2: { unfold with_nl. intros Hn. apply in_app_or in Hn as [Hn|[Hn|[]]]; [|discriminate].
       destruct (printed_chars _ _ _ Hab Hn) as [_ Hc]. congruence. }
  unfold with_nl at 1. rewrite (split_printed a b Hab newline []) by auto. rewrite app_nil_r. cbn [filter].
  destruct b as [|w b]; [exfalso; apply (Hne []); [left; auto|auto]|]. cbn [length Nat.eqb negb].
  f_equal. apply IH. intros t Ht. apply Hne. right; auto.
Qed.

Lemma mapM_Forall2 : forall A B C (f : B -> res C) (g : A -> C) (xs : list A) (ys : list B),
    Forall2 (fun x y => f y = Ok (g x)) xs ys -> mapM f ys = Ok (map g xs).
Proof. intros A B C f g xs ys H. induction H as [|x y l m Hxy H IH]; auto. cbn [mapM map]. rewrite Hxy. cbn [rbind]. rewrite IH. auto. Qed.

Lemma row_tokens : forall N row, exists toks, Forall2 printed (map (pr N) row) toks /\
    mapM (fun w => value (rd N w)) toks = Ok (map (rnd N) row) /\ length toks = length row.
Proof.
  intros N. induction row as [|x t (toks & H1 & H2 & H3)].
  - exists []. split; [constructor|]. split; reflexivity.
  - destruct (pr_form N x) as (k & tok & P1 & P2 & P3). exists (tok :: toks). split; [|split].
    + constructor; auto. exists k. auto.
    + cbn [mapM map]. rewrite P3. cbn [value rbind]. rewrite H2. auto.
    + cbn. lia.
Qed.
Theorem load_save : forall N k rows, (1 <= k)%nat -> (forall r, In r rows -> length r = k) ->
    loadtxt N (savetxt N rows) = Ok (map (map (rnd N)) rows).
Proof.
  intros N k rows Hk Hw. unfold savetxt.
  assert (exists toks, Forall2 (Forall2 printed) (map (map (pr N)) rows) toks /\
            mapM (mapM (fun w => value (rd N w))) toks = Ok (map (map (rnd N)) rows) /\
            forall t, In t toks -> t <> []) as (toks & T1 & T2 & T3).
  { clear - Hk Hw. induction rows as [|row t IH].
    - exists []. split; [constructor|]. split; [reflexivity|]. intros t [].
    - destruct (row_tokens N row) as (tk & R1 & R2 & R3).
      destruct IH as (toks & I1 & I2 & I3); [intros r Hr; apply Hw; right; auto|].
      exists (tk :: toks). split; [constructor; auto|]. split.
      + cbn [mapM map]. rewrite R2. cbn [rbind]. rewrite I2. auto.
      + intros x [<-|Hx]; auto. intros He. rewrite He in R3. cbn in R3. rewrite (Hw row (or_introl eq_refl)) in R3. lia. }
  replace (map (fun row => join_sp (map (pr N) row)) rows) with (map join_sp (map (map (pr N)) rows)) by (rewrite map_map; auto).
  rewrite (load_lines N _ _ T1 T3), T2. cbn [rbind].
  replace (forallb _ _) with true; auto. symmetry. apply forallb_forall. intros x Hx.
  apply in_map_iff in Hx as (row & <- & Hr). rewrite map_length, (Hw _ Hr).
  destruct rows as [|r0 t]; [destruct Hr|]. cbn [map hd]. rewrite map_length, (Hw r0 (or_introl eq_refl)). apply Nat.eqb_refl.
Qed.

(** ** Rows of dead-birth files *)
Definition round_samp (f : Z -> Z) (x : samp) : samp := mkSamp (map f (s_theta x)) (f (s_logl x)) (f (s_birth x)).
Lemma samp_row_of : forall f x, samp_of_row (map f (samp_row x)) = round_samp f x.
Proof.
  intros f [t l b]. unfold samp_of_row, samp_row, round_samp, drop_cols. cbn [s_theta s_logl s_birth].
  rewrite map_app, app_length, map_length. cbn [map length].
  rewrite firstn_app, map_length. replace (length t + 2 - 2)%nat with (length t) by lia.
  rewrite Nat.sub_diag, firstn_O, app_nil_r, <- (map_length f t), firstn_all.
  rewrite !app_nth2 by (rewrite ?map_length; lia). rewrite !map_length.
  replace (length t + 2 - 1 - length t)%nat with 1%nat by lia. rewrite Nat.sub_diag. auto.
Qed.

Definition increasing_on (f : Z -> Z) (l : list Z) : Prop :=
  forall x y, In x l -> In y l -> x < y -> f x < f y.
Lemma increasing_ltb : forall f l x y, increasing_on f l -> In x l -> In y l -> (f x <? f y) = (x <? y).
Proof.
  intros f l x y H Hx Hy. destruct (Z.ltb_spec x y) as [Hl|Hl].
  - apply Z.ltb_lt. apply H; auto.
  - apply Z.ltb_ge. destruct (Z.eq_dec x y) as [->|Hn]; [lia|]. assert (f y < f x) by (apply H; auto; lia). lia.
Qed.

(** The run from the rounded rows. *)
Lemma process_rounded : forall E f init out da dw (w : world E),
    well_formed init (points out) -> NoDup (map s_logl out) -> StronglySorted Z.le (map s_logl out) ->
    increasing_on f (init :: map s_logl out) ->
    exists r' labs' tmm' w',
      process_samples_array (map (round_samp f) out) da dw w = (Ok r', w') /\ w_rng w' = w_rng w /\
      logl r' = map f (map s_logl out) /\ theta r' = map (map f) (map s_theta out) /\
      complete_run r' labs' tmm' /\ output r' = None /\ settings r' = None /\
      length (nlive_array r') = length out /\
      forall i, (i < length out)%nat ->
        nth i (nlive_array r') 0 = Z.of_nat (length (filter (fun x =>
          (s_birth x <? nth i (map s_logl out) 0) && (nth i (map s_logl out) 0 <=? s_logl x)) out)).
Proof.
  intros E f init out da dw w [W1 W2] Hnd Hs Hf.
  assert (Hb : forall x, In x out -> In (s_birth x) (init :: map s_logl out) /\ s_birth x < s_logl x /\ init < s_logl x).
  { intros x Hx. destruct (W2 (s_birth x) (s_logl x)) as (B1 & B2 & B3).
    - unfold points. apply in_map_iff. exists x. auto.
    - split; auto. destruct B3 as [->|(b' & B3)]; [left; auto|]. right.
      unfold points in B3. apply in_map_iff in B3 as (y & Hy & Hin). inversion Hy. apply in_map. auto. }
  assert (Hl : forall x, In x out -> In (s_logl x) (init :: map s_logl out)) by (intros x Hx; right; apply in_map; auto).
  set (out2 := map (round_samp f) out).
  assert (L2 : map s_logl out2 = map f (map s_logl out)) by (unfold out2; rewrite !map_map; auto).
  assert (T2 : map s_theta out2 = map (map f) (map s_theta out)) by (unfold out2; rewrite !map_map; auto).
  assert (Hwf : well_formed (f init) (points out2)).
  { split.
    - unfold points, out2. intros He. apply map_eq_nil, map_eq_nil in He. apply W1. rewrite He. auto.
    - intros b l Hin. unfold points, out2 in Hin. rewrite map_map in Hin. cbn in Hin.
      apply in_map_iff in Hin as (x & He & Hx). inversion He; subst b l. destruct (Hb x Hx) as (B1 & B2 & B3).
      split; [apply Hf; auto|]. split; [apply Hf; auto; left; auto|].
      destruct B1 as [<-|B1]; [left; auto|]. right. apply in_map_iff in B1 as (y & Hy & Hyin). exists (f (s_birth y)).
      unfold points, out2. rewrite map_map. cbn. apply in_map_iff. exists y. rewrite Hy. auto. }
  assert (Hnd2 : NoDup (map s_logl out2)).
  { rewrite L2. clear - Hnd Hf. assert (Hi : forall x y, In x (map s_logl out) -> In y (map s_logl out) -> f x = f y -> x = y).
    { intros x y Hx Hy He. destruct (Z.lt_trichotomy x y) as [H|[H|H]]; auto.
      - assert (f x < f y) by (apply Hf; auto; right; auto). lia.
      - assert (f y < f x) by (apply Hf; auto; right; auto). lia. }
    clear Hf. induction (map s_logl out) as [|x t IH]; cbn; [constructor|]. inversion Hnd; subst. constructor.
    - intros Hin. apply in_map_iff in Hin as (y & Hy & Hyin). rewrite (Hi y x) in Hyin; auto; [right|left]; auto.
    - apply IH; auto. intros a b Ha Hb. apply Hi; right; auto. }
  assert (Hs2 : StronglySorted Z.le (map s_logl out2)).
  { rewrite L2. clear - Hs Hf. assert (Hm : forall x y, In x (map s_logl out) -> In y (map s_logl out) -> x <= y -> f x <= f y).
    { intros x y Hx Hy He. destruct (Z.eq_dec x y) as [->|Hn]; [lia|]. assert (f x < f y) by (apply Hf; try (right; auto); lia). lia. }
    clear Hf. induction (map s_logl out) as [|x t IH]; cbn; [constructor|]. inversion Hs; subst. constructor.
    - apply IH; auto. intros a b Ha Hb. apply Hm; right; auto.
    - rewrite Forall_forall in *. intros y Hy. apply in_map_iff in Hy as (z & <- & Hz). apply Hm; [left|right|]; auto. }
  destruct (process_spec E (f init) out2 da dw w Hwf (fun _ => Hnd2)) as (r' & w' & P1 & P2 & P3).
  destruct (processed_complete E (f init) out2 r' Hwf Hnd2 P3) as (labs' & tmm' & C1 & C2 & C3 & _).
  destruct (nlive_distinct E (f init) out2 r' Hwf Hnd2 P3) as (N1 & N2 & N3).
  pose proof P3 as (Q1 & Q2 & _). rewrite (sort_samps_id E out2 Hs2 Hnd2) in Q1, Q2.
  assert (Hlen : length out2 = length out) by (unfold out2; apply map_length).
  exists r', labs', tmm', w'. repeat (split; [solve [auto | congruence]|]).
  intros i Hi. rewrite N3 by lia. f_equal. unfold out2.
  rewrite Q1, L2. rewrite (map_nth_in _ _ _ 0 0) by (rewrite map_length; auto).
  assert (Hni : In (nth i (map s_logl out) 0) (init :: map s_logl out)) by (right; apply nth_In; rewrite map_length; auto).
  set (l := nth i (map s_logl out) 0) in *. clearbody l. clear - Hb Hl Hf Hni.
  assert (Hsub : incl out out) by apply incl_refl. revert Hsub. generalize out at 1 3 4. intros out0. intros Hsub.
  induction out0 as [|x t IH]; auto. cbn [map filter round_samp s_birth s_logl].
  assert (Hx : In x out) by (apply Hsub; left; auto).
  rewrite (increasing_ltb f _ (s_birth x) l Hf) by (auto; apply Hb; auto).
  replace (f l <=? f (s_logl x)) with (l <=? s_logl x).
  2: { rewrite !Z.leb_antisym. f_equal. symmetry. eapply increasing_ltb; eauto. }
  destruct ((s_birth x <? l) && (l <=? s_logl x)); cbn [length]; rewrite IH by (intros y Hy; apply Hsub; right; auto); auto.
Qed.

(** ** What write_run_output does when it returns *)
Definition putf (path content : text) (s : store) : store := fun q => if text_eqb q path then Some content else s q.
Lemma putf_same : forall p c s, putf p c s p = Some c.
Proof. intros. unfold putf. rewrite text_eqb_refl. auto. Qed.
Lemma text_eqb_neq : forall a b, a <> b -> text_eqb a b = false.
Proof. intros a b H. unfold text_eqb. destruct (list_eq_dec ascii_dec a b); congruence. Qed.
Lemma putf_other : forall p c s q, q <> p -> putf p c s q = s q.
Proof. intros. unfold putf. rewrite text_eqb_neq by auto. auto. Qed.

Lemma sbind_Ok : forall E F A B (m : SW E F A) (k : A -> SW E F B) st w x st' w',
    sbind m k st w = (Ok x, st', w') -> exists a st1 w1, m st w = (Ok a, st1, w1) /\ k a st1 w1 = (Ok x, st', w').
Proof. intros E F A B m k st w x st' w' H. unfold sbind in H. destruct (m st w) as [[[a|e] st1] w1]; [|discriminate]. eauto. Qed.
Lemma slift_Ok : forall E F A (m : W E A) (st : stats_in F * store) w x st' w',
    slift m st w = (Ok x, st', w') -> st' = st /\ m w = (Ok x, w').
Proof. intros E F A m st w x st' w' H. unfold slift in H. destruct (m w) as [y w1]. inversion H; subst. auto. Qed.
Lemma wlift_Ok : forall E A (m : res A) (w : world E) x w', wlift m w = (Ok x, w') -> m = Ok x /\ w' = w.
Proof. intros E A m w x w' H. unfold wlift in H. inversion H; auto. Qed.

Definition dead_store (N : savefmt) (root : text) (out : list samp) (s : store) : store :=
  putf (root ++ la "_dead.txt") (savetxt N (map (fun x => but_last (samp_row x)) out))
       (putf (root ++ la "_dead-birth.txt") (savetxt N (map samp_row out)) s).
Definition post_text (N : savefmt) (w_rel : list R) (r : run) : text :=
  text_lines (map (fun '(x, row) => join_sp (prw N x :: map (pr N) row)) (combine w_rel (post_rows r))).

Theorem write_inv : forall E F N (U : uniforms E) (toF : fl -> num F) srt r o root d s (w : world E) d' s' w',
    write_files N U toF srt r o root (d, s) w = (Ok tt, (d', s'), w') ->
    exists out w1 w_rel us sel s3 w4 values stds,
      (o_dead o = true -> run_dead_birth_array r (o_init o) false false w = (Ok out, w1)) /\
      (o_dead o = false -> w1 = w) /\
      (o_equals o || o_post o = true -> get_w_rel r None = Ok w_rel /\ length (theta r) = length (logl r)) /\
      us = fst (U (length w_rel) (w_rng w1)) /\
      sel = (if o_equals o then accepted w_rel us else []) /\
      w4 = (if o_equals o then mkW (snd (U (length w_rel) (w_rng w1))) (w_warn w1) else w1) /\
      let d1 := set_nequals (length sel) (set_nposterior (if o_post o then length (theta r) else 0%nat) d) in
      let s1 := if o_dead o then dead_store N root out s else s in
      let s2 := if o_post o then putf (root ++ la ".txt") (post_text N w_rel r) s1 else s1 in
      s3 = (if o_equals o then putf (root ++ la "_equal_weights.txt") (savetxt N (take [] (post_rows r) sel)) s2 else s2) /\
      (o_stats o = false -> d' = d1 /\ s' = s3 /\ w' = w4) /\
      (o_stats o = true -> exists ob,
         let d2 := set_ndead (length (logl r)) d1 in
         d' = (if o_means o then set_means (toF (hd None values)) (toF (hd None stds)) (map toF (tl values)) (map toF (tl stds)) d2
               else d2) /\
         write_stats_file d' s3 = Ok (ob, s') /\
         (o_means o = true -> run_estimators srt r (stats_estimators r) None = Ok values /\
            run_std_bootstrap srt r (stats_estimators r) false true (o_nsim o) (default_seeds (o_nsim o)) w4 = (Ok stds, w')) /\
         (o_means o = false -> w' = w4)).
Proof.
  intros E F N U toF srt r o root d s w d' s' w' H. unfold write_files in H.
  apply sbind_Ok in H as ([] & st1 & w1 & H1 & H).
  apply sbind_Ok in H as (w_rel & st2 & w2 & H2 & H).
  apply sbind_Ok in H as ([] & st3 & w3 & H3 & H).
  apply sbind_Ok in H as ([] & st4 & w4 & H4 & H).
  assert (A1 : exists out, (o_dead o = true -> run_dead_birth_array r (o_init o) false false w = (Ok out, w1)) /\
            (o_dead o = false -> w1 = w) /\ st1 = (d, if o_dead o then dead_store N root out s else s)).
  { destruct (o_dead o).
    - apply sbind_Ok in H1 as (out & sa & wa & X1 & X2). apply slift_Ok in X1 as [-> X1].
      apply sbind_Ok in X2 as ([] & sb & wb & X2 & X3). unfold put in X2, X3. inversion X2; subst sb wb. cbn [fst snd] in X3.
      inversion X3; subst. exists out. split; auto. split; [discriminate|]. reflexivity.
    - unfold sret in H1. inversion H1; subst. exists []. split; [discriminate|]. auto. }
  destruct A1 as (out & A1 & A2 & ->). set (s1 := if o_dead o then dead_store N root out s else s) in *.
  assert (A3 : (o_equals o || o_post o = true -> get_w_rel r None = Ok w_rel /\ length (theta r) = length (logl r)) /\
               st2 = (d, s1) /\ w2 = w1).
  { destruct (o_equals o || o_post o).
    - apply sbind_Ok in H2 as (v & sa & wa & X1 & X2). apply slift_Ok in X1 as [-> X1]. apply wlift_Ok in X1 as [X1 ->].
      destruct (Nat.eqb_spec (length (theta r)) (length (logl r))); [|discriminate].
      unfold sret in X2. inversion X2; subst. auto.
    - unfold sret in H2. inversion H2; subst. split; [discriminate|auto]. }
  destruct A3 as (A3 & -> & ->).
  set (d0 := set_nposterior (if o_post o then length (theta r) else 0%nat) d).
  set (s2 := if o_post o then putf (root ++ la ".txt") (post_text N w_rel r) s1 else s1).
  assert (A4 : st3 = (d0, s2) /\ w3 = w1).
  { unfold d0, s2. destruct (o_post o).
    - apply sbind_Ok in H3 as ([] & sa & wa & X1 & X2). unfold put in X1. inversion X1; subst sa wa.
      unfold set_out in X2. inversion X2; subst. auto.
    - unfold set_out in H3. inversion H3; subst. auto. }
  destruct A4 as (-> & ->).
  set (us := fst (U (length w_rel) (w_rng w1))).
  set (sel := if o_equals o then accepted w_rel us else []).
  set (s3 := if o_equals o then putf (root ++ la "_equal_weights.txt") (savetxt N (take [] (post_rows r) sel)) s2 else s2).
  assert (A5 : st4 = (set_nequals (length sel) d0, s3) /\
               w4 = (if o_equals o then mkW (snd (U (length w_rel) (w_rng w1))) (w_warn w1) else w1)).
  { unfold s3, sel. destruct (o_equals o).
    - apply sbind_Ok in H4 as (v & sa & wa & X1 & X2). apply slift_Ok in X1 as [-> X1]. unfold random in X1.
      unfold us. destruct (U (length w_rel) (w_rng w1)) as [l st]. inversion X1; subst v wa. cbn [fst snd] in *.
      apply sbind_Ok in X2 as ([] & sa & wa & X2 & X3). unfold put in X2. inversion X2; subst sa wa.
      unfold set_out in X3. inversion X3; subst. auto.
    - unfold set_out in H4. inversion H4; subst. auto. }
  destruct A5 as (-> & A5). subst w4.
  set (w4 := if o_equals o then mkW (snd (U (length w_rel) (w_rng w1))) (w_warn w1) else w1) in *.
  destruct (o_stats o).
  2: { unfold sret in H. inversion H; subst. exists out, w1, w_rel, us, sel, s3, w4, [], [].
       split; [auto|]. split; [auto|]. split; [auto|]. split; [reflexivity|]. split; [reflexivity|]. split; [reflexivity|].
       cbv zeta. split; [reflexivity|]. split; [intros _; repeat split; auto|discriminate]. }
  apply sbind_Ok in H as ([] & st5 & w5 & H5 & H). unfold set_out in H5. inversion H5; subst st5 w5. cbn [fst snd] in H.
  apply sbind_Ok in H as ([] & st6 & w6 & H6 & H).
  set (d2 := set_ndead (length (logl r)) (set_nequals (length sel) d0)) in *.
  assert (A6 : exists values stds,
     st6 = ((if o_means o then set_means (toF (hd None values)) (toF (hd None stds)) (map toF (tl values)) (map toF (tl stds)) d2
             else d2), s3) /\
     (o_means o = true -> run_estimators srt r (stats_estimators r) None = Ok values /\
            run_std_bootstrap srt r (stats_estimators r) false true (o_nsim o) (default_seeds (o_nsim o)) w4 = (Ok stds, w6)) /\
     (o_means o = false -> w6 = w4)).
  { destruct (o_means o).
    - apply sbind_Ok in H6 as (v & sa & wa & X1 & X2). apply slift_Ok in X1 as [-> X1]. apply wlift_Ok in X1 as [X1 ->].
      apply sbind_Ok in X2 as (v2 & sa & wa & X2 & X3). apply slift_Ok in X2 as [-> X2].
      unfold set_out in X3. inversion X3; subst. exists v, v2. split; [reflexivity|]. split; [auto|discriminate].
    - unfold sret in H6. inversion H6; subst. exists [], []. split; [reflexivity|]. split; [discriminate|auto]. }
  destruct A6 as (values & stds & -> & A6 & A7). cbn [fst snd] in H.
  exists out, w1, w_rel, us, sel, s3, w4, values, stds.
  split; [auto|]. split; [auto|]. split; [auto|]. split; [reflexivity|]. split; [reflexivity|]. split; [reflexivity|].
  cbv zeta. split; [reflexivity|]. split; [discriminate|]. intros _. fold d0 d2.
  destruct (write_stats_file _ s3) as [[ob sf]|e] eqn:Hw; inversion H; subst. exists ob.
  split; [reflexivity|]. split; [exact Hw|]. auto.
Qed.

(** ** Computing write_run_output *)
Definition stats_stage {E F} (toF : fl -> num F) (srt : list R -> list nat) (r : run) (o : wopts) : SW E F unit :=
  if o_stats o then
    let% _ := set_out (set_ndead (length (logl r))) in
    let% _ := if o_means o then
                let% values := slift (wlift (run_estimators srt r (stats_estimators r) None)) in
                let% stds := slift (run_std_bootstrap srt r (stats_estimators r) false true (o_nsim o)
                                                      (default_seeds (o_nsim o))) in
                set_out (set_means (toF (hd None values)) (toF (hd None stds))
                                   (map toF (tl values)) (map toF (tl stds)))
              else sret tt in
    fun st w => match write_stats_file (fst st) (snd st) with
                | Ok (_, s) => (Ok tt, (fst st, s), w)
                | Raise e => (Raise e, st, w)
                end
  else sret tt.
Lemma sbind_run : forall E F A B (m : SW E F A) (k : A -> SW E F B) st w a st1 w1,
    m st w = (Ok a, st1, w1) -> sbind m k st w = k a st1 w1.
Proof. intros E F A B m k st w a st1 w1 H. unfold sbind. rewrite H. auto. Qed.
Theorem write_fwd : forall E F N (U : uniforms E) (toF : fl -> num F) srt r o root d s (w : world E) out w1 w_rel,
    (o_dead o = true -> run_dead_birth_array r (o_init o) false false w = (Ok out, w1)) ->
    (o_dead o = false -> w1 = w) ->
    (o_equals o || o_post o = true -> get_w_rel r None = Ok w_rel /\ length (theta r) = length (logl r)) ->
    let us := fst (U (length w_rel) (w_rng w1)) in
    let sel := if o_equals o then accepted w_rel us else [] in
    let w4 := if o_equals o then mkW (snd (U (length w_rel) (w_rng w1))) (w_warn w1) else w1 in
    let d1 := set_nequals (length sel) (set_nposterior (if o_post o then length (theta r) else 0%nat) d) in
    let s1 := if o_dead o then dead_store N root out s else s in
    let s2 := if o_post o then putf (root ++ la ".txt") (post_text N w_rel r) s1 else s1 in
    let s3 := if o_equals o then putf (root ++ la "_equal_weights.txt") (savetxt N (take [] (post_rows r) sel)) s2 else s2 in
    write_files N U toF srt r o root (d, s) w = stats_stage toF srt r o (d1, s3) w4.
Proof.
  intros E F N U toF srt r o root d s w out w1 w_rel H1 H2 H3 us sel w4 d1 s1 s2 s3.
  unfold write_files. fold (stats_stage (E := E) toF srt r o).
  rewrite (sbind_run _ _ _ _ _ _ _ _ tt (d, s1) w1).
  2: { unfold s1. destruct (o_dead o).
       - unfold sbind, slift. rewrite (H1 eq_refl). reflexivity.
       - rewrite (H2 eq_refl). reflexivity. }
  assert (Hw : exists w_rel', (if o_equals o || o_post o then
                  let% w_rel := slift (wlift (get_w_rel r None)) in
                  if (length (theta r) =? length (logl r))%nat then sret w_rel
                  else slift (wraise ValueError)
                else sret []) (d, s1) w1 = (Ok w_rel', (d, s1), w1) /\ (o_equals o || o_post o = true -> w_rel' = w_rel)).
  { destruct (o_equals o || o_post o).
    - destruct (H3 eq_refl) as [G1 G2]. exists w_rel. split; auto. unfold sbind, slift, wlift. rewrite G1, G2, Nat.eqb_refl. reflexivity.
    - exists []. split; [reflexivity|discriminate]. }
  destruct Hw as (w_rel' & W1 & W2). rewrite (sbind_run _ _ _ _ _ _ _ _ _ _ _ W1).
  rewrite (sbind_run _ _ _ _ _ _ _ _ tt (set_nposterior (if o_post o then length (theta r) else 0%nat) d, s2) w1).
  2: { unfold s2. destruct (o_post o); [|reflexivity]. rewrite (W2 (orb_true_r _)). reflexivity. }
  rewrite (sbind_run _ _ _ _ _ _ _ _ tt (d1, s3) w4); auto.
  unfold s3, d1, w4, sel. destruct (o_equals o); [|reflexivity]. rewrite (W2 eq_refl).
  unfold us, sbind, slift, random, put, set_out. destruct (U (length w_rel) (w_rng w1)) as [l st]. reflexivity.
Qed.

Lemma det_dead_birth : forall E r i da dw, det (E := E) (run_dead_birth_array r i da dw).
Proof.
  intros. unfold run_dead_birth_array. apply det_bind; [apply det_check_ns_run|intros _].
  apply det_bind; [apply det_get_run_threads|]. intros [|]; detm.
Qed.
Lemma det_std_bootstrap : forall E srt r l ns fs n, det (E := E) (run_std_bootstrap srt r l ns fs n (default_seeds n)).
Proof.
  intros. unfold run_std_bootstrap, run_bootstrap_values. apply det_bind; [|intros; apply det_ret]. apply det_bind; [|intros; apply det_ret].
  apply det_columns. intros b Hb. apply in_map_iff in Hb as (z & <- & _). reflexivity.
Qed.
Lemma det_same : forall E A (m : W E A) w a w1 w2, det m -> m w = (Ok a, w1) ->
    exists w3, m w2 = (Ok a, w3) /\ w_rng w3 = w_rng w2 /\ w_rng w1 = w_rng w.
Proof.
  intros E A m w a w1 w2 Hd H. destruct (det_spec _ _ _ Hd) as [D1 D2]. pose proof (D1 w w2) as He. rewrite H in He.
  destruct (m w2) as [x w3] eqn:Hm. cbn in He. subst x. exists w3. split; auto. split; eapply D2; eauto.
Qed.
