(** C87: the table of efficiency_gain_df. *)
From Coq Require Import Reals String Ascii Sorted.
From Verif Require Import Base ModelRun ModelBoot ModelParallel ModelReal ModelStats Envs
     Spec SpecRun SpecReal ProofBase ProofMonad ProofReal ProofStats PropSummary PropTables
     ModelFrames ProofFrames PropFrames PropGroups.
Local Open Scope string_scope.
Local Open Scope list_scope.
Local Open Scope nat_scope.

(** ** C87: the rows of the table of efficiency gains *)
(** Value and uncertainty of a quantity for one method after another. *)
Definition block (name : string) (get : method_rows -> list fl * list fl) (d : list (Z * method_rows)) : rows gain_label :=
  flat_map (fun '(n, m) => [((name, (n, "value")), fst (get m)); ((name, (n, "uncertainty")), snd (get m))]) d.
Definition gain_of (g : option (list (fl * fl))) : list fl * list fl :=
  match g with Some l => (map fst l, map snd l) | None => ([], []) end.
(** The whole table: gains are of all methods but the first. *)
Definition gain_table_rows (first : list (list fl)) (rm : bool) (d : list (Z * method_rows)) : rows gain_label :=
  map (fun t => (("true values", (0%Z, "value")), t)) first ++
  block "mean" (fun m => (map s_mean (m_sum m), map s_mean_unc (m_sum m))) d ++
  block "std" (fun m => (map s_std (m_sum m), map s_std_unc (m_sum m))) d ++
  (if rm then block "rmse" (fun m => (map (fun c => fst (get_rmse c)) (m_sum m), map (fun c => snd (get_rmse c)) (m_sum m))) d else []) ++
  block "std efficiency gain" (fun m => gain_of (m_gain m)) (tl d) ++
  (if rm then block "rmse efficiency gain" (fun m => gain_of (m_gain_rmse m)) (tl d) else []).

Lemma flat_map_ext_in : forall A B (f g : A -> list B) l, (forall x, In x l -> f x = g x) -> flat_map f l = flat_map g l.
Proof. intros. rewrite !flat_map_concat_map. f_equal. apply map_ext_in. auto. Qed.
Lemma flat_map_split : forall A B (f g : A -> list B) l,
    Permutation (flat_map (fun x => f x ++ g x) l) (flat_map f l ++ flat_map g l).
Proof.
  induction l as [|x l IH]; cbn; auto. rewrite IH, <- !app_assoc. apply Permutation_app_head.
  rewrite !app_assoc. apply Permutation_app_tail. apply Permutation_app_comm.
Qed.
Lemma code_sorted : forall l, NoDup l -> StronglySorted (fun a b => code Z.eqb l a < code Z.eqb l b) l.
Proof.
  induction 1 as [|x l Hn Hd IH]; [constructor|].
  assert (Hc : forall z, In z l -> code Z.eqb (x :: l) z = S (code Z.eqb l z)).
  { intros z Hz. cbn. destruct (Z.eqb_spec x z); [subst; contradiction|auto]. }
  constructor.
  - assert (G : forall m, incl m l -> StronglySorted (fun a b => code Z.eqb l a < code Z.eqb l b) m ->
        StronglySorted (fun a b => code Z.eqb (x :: l) a < code Z.eqb (x :: l) b) m).
    { intros m Hi Hs. induction Hs as [|a m Hs IHm Hf]; [constructor|].
      constructor; [apply IHm; intros z Hz; apply Hi; right; auto|]. apply Forall_forall. intros b Hb. rewrite Forall_forall in Hf.
      rewrite !Hc by (apply Hi; cbn; auto). specialize (Hf b Hb). lia. }
    apply G; auto. apply incl_refl.
  - apply Forall_forall. intros b Hb. rewrite (Hc b Hb). cbn. rewrite Z.eqb_refl. lia.
Qed.
Section Sorted.
Variable names : list Z.
Definition follows (p q : gain_label * list fl) : Prop := gain_le names (fst q) (fst p) = false.
Definition ordered (d : list (Z * method_rows)) : Prop :=
  StronglySorted (fun a b => code Z.eqb (0%Z :: names) (fst a) < code Z.eqb (0%Z :: names) (fst b)) d.
Lemma lex_gt : forall c1 c2 n, c2 < c1 -> lex c1 c2 n = false.
Proof.
  intros c1 c2 n H. unfold lex. destruct (Nat.ltb_spec c1 c2); [lia|]. destruct (Nat.eqb_spec c1 c2); [lia|]. auto.
Qed.
Lemma lex_eq : forall c n, lex c c n = n.
Proof. intros. unfold lex. rewrite Nat.ltb_irrefl, Nat.eqb_refl. auto. Qed.
Lemma block_sorted : forall c get d, ordered d -> StronglySorted follows (block c get d).
Proof.
  intros c get d H. induction H as [|(n & m) d H IH Hf]; [constructor|]. cbn [block flat_map app]. fold (block c get d).
  assert (K : forall r v, Forall (follows ((c, (n, r)), v)) (block c get d)).
  { intros r v. apply Forall_forall. intros q Hq. apply in_flat_map in Hq. destruct Hq as ((n' & m') & Hin & Hq).
    rewrite Forall_forall in Hf. specialize (Hf _ Hin). cbn [fst] in Hf.
    destruct Hq as [<-|[<-|[]]]; unfold follows, gain_le; cbn [fst snd]; rewrite lex_eq, lex_gt by auto; auto. }
  constructor; [constructor; auto|constructor; auto].
  unfold follows, gain_le. cbn [fst snd]. rewrite !lex_eq. reflexivity.
Qed.
Lemma block_code : forall c get d, Forall (fun p => fst (fst p) = c) (block c get d).
Proof.
  intros. apply Forall_forall. intros q Hq. apply in_flat_map in Hq. destruct Hq as ((n' & m') & Hin & Hq).
  destruct Hq as [<-|[<-|[]]]; auto.
Qed.
Definition code_ge (k : nat) (l : rows gain_label) : Prop := Forall (fun p => k <= code String.eqb gain_cats (fst (fst p))) l.
Lemma block_ge : forall c get d, code_ge (code String.eqb gain_cats c) (block c get d).
Proof. intros. eapply Forall_impl; [|apply block_code]. intros p Hp. cbn beta in Hp. rewrite Hp. lia. Qed.
Lemma ge_weaken : forall k k' l, code_ge k l -> k' <= k -> code_ge k' l.
Proof. intros k k' l H Hk. eapply Forall_impl; [|exact H]. cbn. intros. lia. Qed.
Lemma ge_app : forall k a b, code_ge k a -> code_ge k b -> code_ge k (a ++ b).
Proof. intros. apply Forall_app. auto. Qed.
Lemma sorted_block_app : forall c get d l, ordered d -> StronglySorted follows l -> code_ge (S (code String.eqb gain_cats c)) l ->
    StronglySorted follows (block c get d ++ l).
Proof.
  intros c get d l Hd Hs Hl. apply ssorted_app_intro; auto; [apply block_sorted; auto|].
  eapply Forall_impl; [|apply block_code]. intros p Hp. eapply Forall_impl; [|exact Hl]. cbn beta. intros q Hq.
  destruct p as [[cp lp] vp], q as [[cq lq] vq]. cbn [fst snd] in Hp, Hq. subst cp.
  unfold follows, gain_le. cbn [fst snd]. rewrite lex_gt by lia. auto.
Qed.
End Sorted.
Lemma gain_le_total : forall names a b, gain_le names a b = true \/ gain_le names b a = true.
Proof. intros. unfold gain_le. apply lex_total, lex_total, leb_total. Qed.

Definition opt_block (name : string) (g : method_rows -> option (list (fl * fl))) (x : Z * method_rows) : rows gain_label :=
  match g (snd x) with
  | Some l => [((name, (fst x, "value")), map fst l); ((name, (fst x, "uncertainty")), map snd l)]
  | None => []
  end.
Definition full_block (name : string) (get : method_rows -> list fl * list fl) (x : Z * method_rows) : rows gain_label :=
  [((name, (fst x, "value")), fst (get (snd x))); ((name, (fst x, "uncertainty")), snd (get (snd x)))].
Lemma method_frame_rows : forall rm n m, (m_gain m = None -> m_gain_rmse m = None) ->
    map (fun p => ((fst (fst p), (n, snd (fst p))), snd p)) (method_frame rm m) =
    full_block "mean" (fun m => (map s_mean (m_sum m), map s_mean_unc (m_sum m))) (n, m) ++
    full_block "std" (fun m => (map s_std (m_sum m), map s_std_unc (m_sum m))) (n, m) ++
    (if rm then full_block "rmse" (fun m => (map (fun c => fst (get_rmse c)) (m_sum m), map (fun c => snd (get_rmse c)) (m_sum m))) (n, m) else []) ++
    opt_block "std efficiency gain" m_gain (n, m) ++ opt_block "rmse efficiency gain" m_gain_rmse (n, m).
Proof.
  intros rm n [s g gr] H. cbn [m_sum m_gain m_gain_rmse] in *. unfold method_frame, opt_block, full_block. cbn [m_sum m_gain m_gain_rmse fst snd].
  destruct g as [g|]; [|rewrite H by auto; destruct rm; reflexivity].
  destruct gr as [gr|]; destruct rm; reflexivity.
Qed.
Lemma full_block_all : forall name get d, flat_map (full_block name get) d = block name get d.
Proof. intros. apply flat_map_ext_in. intros (n & m) _. reflexivity. Qed.
Lemma opt_block_all : forall name g d, Forall (fun x => g (snd x) <> None) d -> flat_map (opt_block name g) d = block name (fun m => gain_of (g m)) d.
Proof.
  induction 1 as [|(n & m) d Hx H IH]; auto. cbn [flat_map block]. fold (block name (fun m => gain_of (g m)) d). rewrite <- IH.
  unfold opt_block at 1. cbn [fst snd] in *. destruct (g m) as [l|]; [reflexivity|congruence].
Qed.

(** The rows of efficiency_gain_df: true values (nan if there are none), then
    for mean, standard deviation, root mean squared error and gains each
    method in order; the numbers are those of C56 and C57. *)
Theorem C87_gain_table : forall py3 names methods nest tv it rm adj d,
    efficiency_gain_df py3 names methods nest tv rm adj = Ok d ->
    exists first, efficiency_gain_frame py3 names methods nest tv it rm adj = Ok (gain_table_rows first rm d) /\
      (it = false -> first = []) /\
      (it = true -> first = [match tv with Some t => t | None => repeat None nest end]) /\
      map fst d = names /\
      (forall n m, hd_error d = Some (n, m) -> m_gain m = None /\ m_gain_rmse m = None) /\
      Forall (fun x => m_gain (snd x) <> None /\ (rm = true -> m_gain_rmse (snd x) <> None)) (tl d).
Proof.
  intros py3 names methods nest tv it rm adj d H.
  destruct (gain_table _ _ _ _ _ _ _ _ H) as (Hn & Hl & Hf & name0 & base & Hb & He).
  unfold efficiency_gain_frame. rewrite H. cbn [rbind].
  assert (Hlen : length d = length names) by (rewrite <- Hf, map_length; auto).
  destruct d as [|(n0 & m0) d']; [discriminate|]. cbn in Hb. injection Hb as <- <-.
  assert (G0 : m_gain m0 = None /\ m_gain_rmse m0 = None).
  { destruct methods as [|v0 ms]; [cbn in *; lia|]. destruct (He 0 n0 m0 v0 eq_refl eq_refl) as (_ & K & _). auto. }
  assert (G1 : Forall (fun x => m_gain (snd x) <> None /\ (rm = true -> m_gain_rmse (snd x) <> None) /\ (rm = false -> m_gain_rmse (snd x) = None)) d').
  { apply Forall_forall. intros (n & m) Hin. apply In_nth_error in Hin. destruct Hin as (i & Hi).
    assert (Hi' : S i < length methods) by (rewrite Hl, <- Hlen; cbn; apply -> Nat.succ_lt_mono; apply nth_error_Some; congruence).
    destruct (nth_error methods (S i)) as [v|] eqn:Hv; [|apply nth_error_None in Hv; lia].
    destruct (He (S i) n m v Hi Hv) as (_ & _ & K). destruct K as (K1 & K2); [lia|]. cbn [snd]. rewrite K1, K2.
    split; [discriminate|]. split; intros ->; [discriminate|auto]. }
  set (d := (n0, m0) :: d') in *.
  assert (Hord : ordered names d).
  { apply code_sorted in Hn. inversion_clear Hn as [|? ? Hs _]. unfold ordered. set (cd := code Z.eqb (0%Z :: names)) in *.
    rewrite <- Hf in Hs. clear - Hs. clearbody cd. induction d as [|x d IH]; [constructor|]. cbn in Hs. inversion_clear Hs as [|? ? Hs' Hfa].
    constructor; [apply IH; auto|]. apply Forall_forall. intros y Hy. rewrite Forall_forall in Hfa. apply Hfa, in_map, Hy. }
  assert (Hord' : ordered names (tl d)) by (inversion_clear Hord; auto).
  set (first := if it then [match tv with Some t => t | None => repeat None nest end] else []).
  exists first. split; [|split; [|split; [|split; [|split]]]].
  - apply (f_equal (@Ok (rows gain_label))). apply sort_unique; [apply gain_le_total| |].
    + (* order *)
      assert (S5 : StronglySorted (follows names) (if rm then block "rmse efficiency gain" (fun m => gain_of (m_gain_rmse m)) (tl d) else [])).
      { destruct rm; [apply block_sorted; auto|constructor]. }
      assert (E5 : code_ge 5 (if rm then block "rmse efficiency gain" (fun m => gain_of (m_gain_rmse m)) (tl d) else [])).
      { destruct rm; [exact (block_ge "rmse efficiency gain" _ _)|constructor]. }
      pose proof (sorted_block_app names "std efficiency gain" (fun m => gain_of (m_gain m)) _ _ Hord' S5 E5) as S4.
      pose proof (ge_app 4 _ _ (block_ge "std efficiency gain" (fun m => gain_of (m_gain m)) (tl d)) (ge_weaken 5 4 _ E5 ltac:(lia))) as E4.
      set (t4 := block "std efficiency gain" _ _ ++ _) in *.
      assert (S3 : StronglySorted (follows names) ((if rm then block "rmse" (fun m => (map (fun c => fst (get_rmse c)) (m_sum m), map (fun c => snd (get_rmse c)) (m_sum m))) d else []) ++ t4)).
      { destruct rm; auto. apply sorted_block_app; auto. }
      assert (E3 : code_ge 3 ((if rm then block "rmse" (fun m => (map (fun c => fst (get_rmse c)) (m_sum m), map (fun c => snd (get_rmse c)) (m_sum m))) d else []) ++ t4)).
      { apply ge_app; [destruct rm; [exact (block_ge "rmse" _ _)|constructor]|]. eapply ge_weaken; eauto. }
      set (t3 := _ ++ t4) in *.
      pose proof (sorted_block_app names "std" (fun m => (map s_std (m_sum m), map s_std_unc (m_sum m))) _ _ Hord S3 E3) as S2.
      pose proof (ge_app 2 _ _ (block_ge "std" (fun m => (map s_std (m_sum m), map s_std_unc (m_sum m))) d) (ge_weaken 3 2 _ E3 ltac:(lia))) as E2.
      set (t2 := block "std" _ _ ++ t3) in *.
      pose proof (sorted_block_app names "mean" (fun m => (map s_mean (m_sum m), map s_mean_unc (m_sum m))) _ _ Hord S2 E2) as S1.
      pose proof (ge_app 1 _ _ (block_ge "mean" (fun m => (map s_mean (m_sum m), map s_mean_unc (m_sum m))) d) (ge_weaken 2 1 _ E2 ltac:(lia))) as E1.
      unfold gain_table_rows. fold t4. fold t3. fold t2. set (t1 := block "mean" _ _ ++ t2) in *.
      unfold first. destruct it; [|exact S1]. cbn [map app]. constructor; auto.
      eapply Forall_impl; [|exact E1]. cbn beta. intros q Hq. unfold gain_le. cbn [fst snd]. rewrite lex_gt; auto.
    + (* contents *)
      set (results := flat_map _ d).
      assert (P : Permutation results (gain_table_rows [] rm d)).
      { unfold results.
        assert (Ee : forall x, In x d -> (let '(name, m) := x in
              map (fun p => ((fst (fst p), (name, snd (fst p))), snd p)) (method_frame rm m)) =
            full_block "mean" (fun m => (map s_mean (m_sum m), map s_mean_unc (m_sum m))) x ++
            full_block "std" (fun m => (map s_std (m_sum m), map s_std_unc (m_sum m))) x ++
            (if rm then full_block "rmse" (fun m => (map (fun c => fst (get_rmse c)) (m_sum m), map (fun c => snd (get_rmse c)) (m_sum m))) x else []) ++
            opt_block "std efficiency gain" m_gain x ++ opt_block "rmse efficiency gain" m_gain_rmse x).
        { intros (n & m) Hin. apply method_frame_rows. destruct Hin as [E|Hin]; [injection E as <- <-; tauto|].
          rewrite Forall_forall in G1. specialize (G1 _ Hin). cbn in G1. tauto. }
        rewrite (flat_map_ext_in _ _ _ _ _ Ee). clear Ee. unfold gain_table_rows. cbn [map app].
        rewrite flat_map_split. apply Permutation_app; [rewrite full_block_all; reflexivity|]. rewrite flat_map_split. apply Permutation_app; [rewrite full_block_all; reflexivity|].
        rewrite flat_map_split. apply Permutation_app.
        { destruct rm; [rewrite full_block_all; reflexivity|]. clear. induction d; cbn; auto. }
        rewrite flat_map_split. apply Permutation_app.
        - rewrite <- opt_block_all by (eapply Forall_impl; [|exact G1]; cbn; tauto). unfold d. cbn [flat_map tl].
          unfold opt_block at 1. cbn [snd]. rewrite (proj1 G0). reflexivity.
        - unfold d. cbn [flat_map tl]. unfold opt_block at 1. cbn [snd]. rewrite (proj2 G0). cbn [app]. destruct rm.
          + rewrite opt_block_all; [reflexivity|]. eapply Forall_impl; [|exact G1]; cbn. intros a Ha. apply Ha. auto.
          + assert (Z : flat_map (opt_block "rmse efficiency gain" m_gain_rmse) d' = []); [|apply Permutation_refl'; exact Z].
            clear - G1. induction G1 as [|x d' Hx G1 IH]; auto. cbn. unfold opt_block at 1. destruct Hx as (_ & _ & Hx). rewrite Hx by auto. exact IH. }
      unfold first. destruct it; [|exact P].
      rewrite set_row_new.
      * change (gain_table_rows [match tv with Some t => t | None => repeat None nest end] rm d) with
          (("true values", (0%Z, "value"), match tv with Some t => t | None => repeat None nest end) :: gain_table_rows [] rm d).
        rewrite P. symmetry. apply Permutation_cons_append.
      * assert (Q : Forall (fun p => gain_label_eqb (fst p) ("true values", (0%Z, "value")) = false) (gain_table_rows [] rm d)).
        { assert (B : forall c get e, c <> "true values" -> Forall (fun p => gain_label_eqb (fst p) ("true values", (0%Z, "value")) = false) (block c get e)).
          { intros c get e Hc. eapply Forall_impl; [|apply block_code]. cbn beta. intros [[cp lp] vp] Hp. cbn [fst] in Hp. subst cp.
            unfold gain_label_eqb. cbn [fst snd]. destruct (String.eqb_spec c "true values"); [contradiction|auto]. }
          unfold gain_table_rows. cbn [map app].
          apply Forall_app; split; [apply B; discriminate|]. apply Forall_app; split; [apply B; discriminate|].
          apply Forall_app; split; [destruct rm; [apply B; discriminate|constructor]|].
          apply Forall_app; split; [apply B; discriminate|]. destruct rm; [apply B; discriminate|constructor]. }
        rewrite P. exact Q.
  - intros ->. auto.
  - intros ->. auto.
  - exact Hf.
  - intros n m E. unfold d in E. cbn in E. injection E as <- <-. auto.
  - eapply Forall_impl; [|exact G1]. cbn. tauto.
Qed.
Print Assumptions C87_gain_table.
(** Errors are those of C56. *)
Theorem C87_errors : forall py3 names methods nest tv it rm adj e,
    efficiency_gain_df py3 names methods nest tv rm adj = Raise e -> efficiency_gain_frame py3 names methods nest tv it rm adj = Raise e.
Proof. intros. unfold efficiency_gain_frame. rewrite H. reflexivity. Qed.
Print Assumptions C87_errors.
Example C87_example : forall a b c d e f,
    let table := efficiency_gain_frame true [7; 5]%Z [[[Some a]; [Some b]]; [[Some c]; [Some d]]] 1 (Some [Some e]) true true None in
    exists t, table = Ok t /\
      map fst t = [("true values", (0%Z, "value"));
                   ("mean", (7%Z, "value")); ("mean", (7%Z, "uncertainty")); ("mean", (5%Z, "value")); ("mean", (5%Z, "uncertainty"));
                   ("std", (7%Z, "value")); ("std", (7%Z, "uncertainty")); ("std", (5%Z, "value")); ("std", (5%Z, "uncertainty"));
                   ("rmse", (7%Z, "value")); ("rmse", (7%Z, "uncertainty")); ("rmse", (5%Z, "value")); ("rmse", (5%Z, "uncertainty"));
                   ("std efficiency gain", (5%Z, "value")); ("std efficiency gain", (5%Z, "uncertainty"));
                   ("rmse efficiency gain", (5%Z, "value")); ("rmse efficiency gain", (5%Z, "uncertainty"))] /\
      efficiency_gain_frame true [7; 7]%Z [[[Some a]; [Some b]]; [[Some c]; [Some f]]] 1 None false false None = Raise ValueError.
Proof.
  intros.
  assert (E : exists g, efficiency_gain_df true [7; 5]%Z [[[Some a]; [Some b]]; [[Some c]; [Some d]]] 1 (Some [Some e]) true None = Ok g)
    by (unfold efficiency_gain_df; destruct (ListDec.NoDup_dec _ _) as [|N];
        [eexists; reflexivity|exfalso; apply N; repeat constructor; cbn; intuition discriminate]).
  destruct E as (g & E).
  destruct (C87_gain_table _ _ _ _ _ true _ _ _ E) as (first & T & _ & T1 & T2 & _ & _).
  exists (gain_table_rows first true g). split; [exact T|]. rewrite (T1 eq_refl).
  destruct g as [|[? ?] [|[? ?] [|]]]; try discriminate T2. injection T2 as -> ->. split; [reflexivity|].
  apply C87_errors. unfold efficiency_gain_df. destruct (ListDec.NoDup_dec _ _) as [N|]; [|reflexivity].
  exfalso. inversion_clear N as [|? ? _ N']. inversion_clear N' as [|? ? N _]. apply N. left. auto.
Qed.
