(** Lemmas on parallel_utils and batch_process_data. *)
From Verif Require Import Base ModelRun ModelData ModelParallel ProofBase ProofMonad.

(** ** mapM *)

Lemma mapM_ext_in : forall A B (f g : A -> res B) l,
    (forall x, In x l -> f x = g x) -> mapM f l = mapM g l.
Proof.
  induction l as [|x t IH]; intros H; cbn [mapM]; auto.
  rewrite (H x) by (left; auto). rewrite IH by (intros; apply H; right; auto). auto.
Qed.
Lemma mapM_Raise : forall A B (f : A -> res B) l e,
    mapM f l = Raise e <->
    exists l1 x l2, l = l1 ++ x :: l2 /\ f x = Raise e /\
                    (forall y, In y l1 -> exists v, f y = Ok v).
Proof.
  induction l as [|x t IH]; intros e; cbn [mapM].
  - split; [discriminate|]. intros (l1 & x & l2 & H & _). destruct l1; discriminate.
  - destruct (f x) as [y|e'] eqn:Hx; cbn [rbind].
    + destruct (mapM f t) as [ys|e'] eqn:Ht; cbn [rbind].
      * split; [discriminate|]. intros (l1 & x' & l2 & H & Hr & Hok).
        destruct l1 as [|z l1]; injection H; intros; subst; [congruence|].
        assert (Hbad : @Ok (list B) ys = Raise e); [|discriminate].
        apply IH. exists l1, x', l2. repeat split; auto. intros; apply Hok; right; auto.
      * rewrite IH. split.
        -- intros (l1 & x' & l2 & H & Hr & Hok). exists (x :: l1), x', l2. subst.
           repeat split; auto. intros z [<-|Hz]; eauto.
        -- intros (l1 & x' & l2 & H & Hr & Hok).
           destruct l1 as [|z l1]; injection H; intros; subst; [congruence|].
           exists l1, x', l2. repeat split; auto. intros; apply Hok; right; auto.
    + split.
      * intros [= ->]. exists [], x, t. repeat split; auto. intros y [].
      * intros (l1 & x' & l2 & H & Hr & Hok).
        destruct l1 as [|z l1]; injection H; intros; subst; [congruence|].
        destruct (Hok z (or_introl eq_refl)). congruence.
Qed.
Lemma mapM_app : forall A B (f : A -> res B) l1 l2,
    mapM f (l1 ++ l2) = let! a := mapM f l1 in let! b := mapM f l2 in Ok (a ++ b).
Proof.
  induction l1 as [|x t IH]; intros l2; cbn [mapM app rbind].
  - destruct (mapM f l2); auto.
  - destruct (f x); cbn [rbind]; auto. rewrite IH.
    destruct (mapM f t); cbn [rbind]; auto. destruct (mapM f l2); auto.
Qed.
Lemma mapM_map : forall A B C (f : B -> res C) (h : A -> B) l,
    mapM f (map h l) = mapM (fun x => f (h x)) l.
Proof. induction l; cbn [mapM map]; auto. rewrite IHl. auto. Qed.

Lemma wmapM_free : forall E A B (f : A -> W E B) g xs (w : world E),
    (forall x w, fst (f x w) = g x) -> fst (wmapM f xs w) = mapM g xs.
Proof.
  induction xs as [|x t IH]; intros w H; cbn [wmapM mapM]; auto.
  unfold wbind at 1. pose proof (H x w) as Hx. destruct (f x w) as [[y|e] w1]; cbn [fst] in Hx;
    rewrite <- Hx; cbn [rbind fst]; auto.
  unfold wbind. specialize (IH w1 H). destruct (wmapM f t w1) as [[ys|e] w2]; cbn [fst] in IH;
    rewrite <- IH; auto.
Qed.

(** ** chunks *)

Lemma concat_chunks_fuel : forall A k n (l : list A), (0 < k)%nat -> (length l <= n)%nat ->
    concat (chunks_fuel n k l) = l.
Proof.
  induction n as [|n IH]; intros l Hk Hl.
  - destruct l; [reflexivity|cbn in Hl; lia].
  - destruct l as [|x t]; [reflexivity|]. cbn [chunks_fuel concat].
    rewrite IH; auto.
    + apply firstn_skipn.
    + rewrite skipn_length. cbn [length] in *. lia.
Qed.
Lemma concat_chunks : forall A k (l : list A), (0 < k)%nat -> concat (chunks k l) = l.
Proof. intros. apply concat_chunks_fuel; auto. Qed.

Lemma mapM_concat : forall A B (g : A -> res B) ls,
    (let! rs := mapM (mapM g) ls in Ok (concat rs)) = mapM g (concat ls).
Proof.
  induction ls as [|l t IH]; cbn [mapM concat]; auto.
  rewrite mapM_app, <- IH. destruct (mapM g l); cbn [rbind]; auto.
  destruct (mapM (mapM g) t); auto.
Qed.

Lemma parallel_map_free : forall E A B (par : option (sched E)) pw k (f : A -> W E B) g xs w,
    (forall x w, fst (f x w) = g x) -> (par <> None -> (0 < k)%nat) ->
    fst (parallel_map par pw k f xs w) = mapM g xs.
Proof.
  intros E A B par pw k f g xs w Hf Hk. destruct par as [s|]; cbn [parallel_map].
  - destruct (Nat.eqb_spec k 0) as [->|Hk0]; [specialize (Hk ltac:(discriminate)); lia|].
    unfold wlift. cbn [fst]. rewrite <- (concat_chunks _ k xs) at 3 by lia.
    rewrite <- mapM_concat.
    set (cs := chunks k xs).
    assert (Hm : mapM (fun '(i, c) => in_worker (wmapM f c) (s_state s i))
                      (combine (seq 0 (length cs)) cs) = mapM (mapM g) cs).
    { rewrite (mapM_ext_in _ _ _ (fun p => mapM g (snd p))).
      - rewrite <- mapM_map with (h := snd). f_equal. clearbody cs.
        generalize 0%nat. induction cs as [|c t IH]; intros n; cbn; auto. rewrite IH. auto.
      - intros [i c] _. unfold in_worker. cbn [snd]. apply wmapM_free; auto. }
    rewrite Hm. auto.
  - unfold wbind. destruct pw; cbn; apply wmapM_free; auto.
Qed.

(** ** parallel_apply *)

Definition order_of {E} (par : option (sched E)) (n : nat) : list nat :=
  match par with None => seq 0 n | Some s => s_order s end.
Definition at_index {A B} (g : A -> res B) (xs : list A) (i : nat) : res B :=
  match nth_error xs i with Some x => g x | None => Raise IndexError end.

Lemma mapM_at_seq : forall A B (g : A -> res B) xs,
    mapM (at_index g xs) (seq 0 (length xs)) = mapM g xs.
Proof.
  intros A B g xs.
  assert (H : forall l1 l2, mapM (at_index g (l1 ++ l2)) (seq (length l1) (length l2)) = mapM g l2).
  { intros l1 l2. revert l1. induction l2 as [|x t IH]; intros l1; cbn [length seq mapM]; auto.
    unfold at_index at 1. rewrite nth_error_app2 by lia. rewrite Nat.sub_diag. cbn [nth_error].
    specialize (IH (l1 ++ [x])). rewrite <- app_assoc, app_length in IH. cbn [app length] in IH.
    rewrite Nat.add_1_r in IH. rewrite IH. auto. }
  apply (H [] xs).
Qed.

Lemma parallel_apply_free : forall E A B (par : option (sched E)) pw (f : A -> W E B) g xs w,
    (forall x w, fst (f x w) = g x) ->
    fst (parallel_apply par pw f xs w) = mapM (at_index g xs) (order_of par (length xs)).
Proof.
  intros E A B par pw f g xs w Hf. destruct par as [s|]; cbn [parallel_apply order_of].
  - unfold wlift. cbn [fst]. apply mapM_ext_in. intros i _. unfold at_index.
    destruct (nth_error xs i); auto. apply Hf.
  - rewrite mapM_at_seq. unfold wbind. destruct pw; cbn; apply wmapM_free; auto.
Qed.

(** ** sorting *)

Lemma insert_key_perm : forall A k (x : A) l, Permutation (insert_key k x l) ((k, x) :: l).
Proof.
  induction l as [|[k' y] t IH]; cbn [insert_key]; auto.
  destruct (k <=? k')%nat; auto. rewrite IH. apply perm_swap.
Qed.
Lemma insert_key_sorted : forall A k (x : A) l,
    StronglySorted (fun a b => (fst a <= fst b)%nat) l ->
    StronglySorted (fun a b => (fst a <= fst b)%nat) (insert_key k x l).
Proof.
  induction l as [|[k' y] t IH]; cbn [insert_key]; intros H; [repeat constructor|].
  apply StronglySorted_inv in H as [H1 H2].
  destruct (Nat.leb_spec k k') as [Hk|Hk].
  - constructor; [constructor; auto|]. constructor; auto.
    eapply Forall_impl; [|apply H2]. cbn. intros; lia.
  - constructor; auto. rewrite Forall_forall in *. intros p Hp.
    apply (Permutation_in _ (insert_key_perm _ k x t)) in Hp as [<-|Hp]; cbn; [lia|].
    specialize (H2 p Hp). auto.
Qed.
Lemma sort_unique : forall A (l1 l2 : list (nat * A)),
    Permutation l1 l2 ->
    StronglySorted (fun a b => (fst a <= fst b)%nat) l1 ->
    StronglySorted (fun a b => (fst a < fst b)%nat) l2 -> l1 = l2.
Proof.
  intros A l1 l2 Hp. revert l1 Hp. induction l2 as [|p t IH]; intros l1 Hp H1 H2.
  - apply Permutation_sym, Permutation_nil in Hp. auto.
  - destruct l1 as [|q t1]; [apply Permutation_nil in Hp; discriminate|].
    apply StronglySorted_inv in H1 as [S1 F1]. apply StronglySorted_inv in H2 as [S2 F2].
    rewrite Forall_forall in *.
    assert (q = p) as ->.
    { assert (Hq : In q (p :: t)) by (apply (Permutation_in _ Hp); left; auto).
      assert (Hp' : In p (q :: t1)) by (apply (Permutation_in _ (Permutation_sym Hp)); left; auto).
      destruct Hq as [->|Hq]; auto. destruct Hp' as [->|Hp']; auto.
      specialize (F1 _ Hp'). specialize (F2 _ Hq). lia. }
    f_equal. apply IH; auto. apply Permutation_cons_inv in Hp. auto.
Qed.
Lemma sorted_key_unique : forall A (l l2 : list (nat * A)),
    Permutation l l2 -> StronglySorted (fun a b => (fst a < fst b)%nat) l2 ->
    sorted_key l = map snd l2.
Proof.
  intros A l l2 Hp Hs. unfold sorted_key. f_equal. apply sort_unique; auto.
  - rewrite <- Hp. clear. induction l as [|[k x] t IH]; cbn; auto.
    rewrite insert_key_perm. auto.
  - clear. induction l as [|[k x] t IH]; cbn; [constructor|]. apply insert_key_sorted; auto.
Qed.

(** ** batch_process_data *)

Definition item_of (outcome : Z -> res run) (z : Z) : item :=
  match outcome z with Ok r => IRun r | Raise e => IErr e z end.

Lemma index_of_nth : forall l i z, NoDup l -> nth_error l i = Some z -> index_of z l = Ok i.
Proof.
  induction l as [|x t IH]; intros i z Hn Hi; [destruct i; discriminate|].
  inversion Hn; subst. destruct i as [|i]; cbn in Hi.
  - injection Hi as ->. cbn. rewrite Z.eqb_refl. auto.
  - cbn [index_of]. destruct (Z.eqb_spec x z) as [->|_].
    + exfalso. apply H1. eapply nth_error_In; eauto.
    + rewrite (IH i z); auto.
Qed.

Lemma mapM_total : forall A B (f : A -> res B) (h : A -> B) l,
    (forall x, In x l -> f x = Ok (h x)) -> mapM f l = Ok (map h l).
Proof.
  induction l as [|x t IH]; intros H; cbn [mapM map]; auto.
  rewrite (H x) by (left; auto). cbn [rbind]. rewrite IH; auto. intros; apply H; right; auto.
Qed.

Lemma helper_free : forall E (proc : Z -> W E run) handled outcome z w,
    (forall z w, fst (proc z w) = outcome z) ->
    fst (process_error_helper proc handled z w) =
    match outcome z with
    | Ok r => Ok (IRun r)
    | Raise e => if handled e then Ok (IErr e z) else Raise e
    end.
Proof.
  intros E proc handled outcome z w H. specialize (H z w). unfold process_error_helper.
  destruct (proc z w) as [[r|e] w']; cbn [fst] in *; rewrite <- H; auto.
Qed.

Lemma lt_sorted_seq : forall A (h : nat -> A) n k,
    StronglySorted (fun a b => (fst a < fst b)%nat) (map (fun i => (i, h i)) (seq k n)).
Proof.
  induction n as [|n IH]; intros k; cbn [seq map]; constructor; auto.
  rewrite Forall_forall. intros p Hp. apply in_map_iff in Hp as (i & <- & Hi).
  apply in_seq in Hi. cbn. lia.
Qed.

Lemma batch_ok : forall E par pw (proc : Z -> W E run) handled outcome roots w,
    (forall z w, fst (proc z w) = outcome z) ->
    NoDup roots -> Permutation (order_of par (length roots)) (seq 0 (length roots)) ->
    (forall z r, In z roots -> outcome z = Ok r ->
                 exists o, output r = Some o /\ o_root o = Some z) ->
    (forall z e, In z roots -> outcome z = Raise e -> handled e = true) ->
    fst (batch_process_data par pw proc handled roots w) =
    Ok (map (message_of (length roots)) (collect_errors 0 (map (item_of outcome) roots) []),
        flat_map (fun x => match x with IRun r => [r] | IErr _ _ => [] end)
                 (map (item_of outcome) roots)).
Proof.
  intros E par pw proc handled outcome roots w Hfree Hnd Hord Hroot Hh.
  unfold batch_process_data, wbind.
  pose proof (parallel_apply_free E _ _ par pw (process_error_helper proc handled)
                _ roots w (fun z w => helper_free E proc handled outcome z w Hfree)) as Hp.
  set (n := length roots) in *.
  set (it := fun i => item_of outcome (nth i roots 0)).
  assert (Hin : forall i, In i (order_of par n) -> (i < n)%nat).
  { intros i Hi. apply (Permutation_in _ Hord) in Hi. apply in_seq in Hi. lia. }
  rewrite (mapM_total _ _ _ it) in Hp.
  2:{ intros i Hi. unfold at_index. rewrite (nth_error_nth' _ 0) by (apply Hin; auto).
      unfold it, item_of. pose proof (nth_In roots 0 (Hin i Hi)) as Hz.
      destruct (outcome (nth i roots 0)) as [r|e] eqn:Ho; auto. rewrite (Hh _ _ Hz Ho). auto. }
  destruct (parallel_apply par pw (process_error_helper proc handled) roots w) as [r1 w1].
  cbn [fst] in Hp. rewrite Hp. unfold wlift. rewrite mapM_map.
  rewrite (mapM_total _ _ _ (fun i => (i, it i))).
  2:{ intros i Hi. pose proof (nth_In roots 0 (Hin i Hi)) as Hz.
      assert (Hr : item_root (it i) = Ok (nth i roots 0)).
      { unfold it, item_of. destruct (outcome (nth i roots 0)) as [r|e] eqn:Ho; auto. cbn [item_root].
        destruct (Hroot _ _ Hz Ho) as (o & -> & ->). auto. }
      rewrite Hr. cbn [rbind]. rewrite (index_of_nth roots i); auto.
      apply nth_error_nth'. apply Hin; auto. }
  unfold wret. cbn [fst].
  rewrite (sorted_key_unique _ _ (map (fun i => (i, it i)) (seq 0 n))).
  - rewrite map_map. cbn [snd].
    assert (Hm : map it (seq 0 n) = map (item_of outcome) roots).
    { unfold it, n. rewrite <- (map_map (fun i => nth i roots 0)). f_equal.
      clear. induction roots as [|z t IH]; cbn [length seq map nth]; auto.
      f_equal. rewrite <- seq_shift, map_map. cbn. auto. }
    rewrite (map_ext _ it) by reflexivity. rewrite Hm. auto.
  - apply Permutation_map; auto.
  - apply lt_sorted_seq.
Qed.

(** The first position of [z] in [l]. *)
Definition first_pos (l : list Z) (z : Z) (k : nat) : Prop :=
  nth_error l k = Some z /\ forall j, (j < k)%nat -> nth_error l j <> Some z.
Lemma first_pos_unique : forall l z k k', first_pos l z k -> first_pos l z k' -> k = k'.
Proof.
  intros l z k k' [A1 A2] [B1 B2].
  destruct (Nat.lt_trichotomy k k') as [H|[H|H]]; auto; exfalso.
  - apply (B2 k); auto.
  - apply (A2 k'); auto.
Qed.
Lemma index_of_first : forall l z, In z l -> exists k, index_of z l = Ok k /\ first_pos l z k.
Proof.
  induction l as [|x t IH]; intros z Hz; [destruct Hz|]. cbn [index_of].
  destruct (Z.eqb_spec x z) as [->|Hx].
  - exists 0%nat. split; auto. split; auto. intros; lia.
  - destruct Hz as [->|Hz]; [congruence|]. destruct (IH z Hz) as (k & -> & F1 & F2).
    exists (S k). split; auto. split; auto. intros [|j] Hj; cbn; [congruence|]. apply F2. lia.
Qed.

Lemma batch_repeated : forall E par pw (proc : Z -> W E run) handled outcome roots w,
    (forall z w, fst (proc z w) = outcome z) ->
    Permutation (order_of par (length roots)) (seq 0 (length roots)) ->
    (forall z r, In z roots -> outcome z = Ok r ->
                 exists o, output r = Some o /\ o_root o = Some z) ->
    (forall z e, In z roots -> outcome z = Raise e -> handled e = true) ->
    exists zs, Permutation zs roots /\
      (forall l1 z l2 z' l3 k k', zs = l1 ++ z :: l2 ++ z' :: l3 ->
         first_pos roots z k -> first_pos roots z' k' -> (k <= k')%nat) /\
      fst (batch_process_data par pw proc handled roots w) =
      Ok (map (message_of (length roots)) (collect_errors 0 (map (item_of outcome) zs) []),
          flat_map (fun x => match x with IRun r => [r] | IErr _ _ => [] end)
                   (map (item_of outcome) zs)).
Proof.
  intros E par pw proc handled outcome roots w Hfree Hord Hroot Hh.
  unfold batch_process_data, wbind.
  pose proof (parallel_apply_free E _ _ par pw (process_error_helper proc handled)
                _ roots w (fun z w => helper_free E proc handled outcome z w Hfree)) as Hp.
  set (n := length roots) in *.
  set (rt := fun i => nth i roots 0). set (it := fun i => item_of outcome (rt i)).
  assert (Hin : forall i, In i (order_of par n) -> (i < n)%nat).
  { intros i Hi. apply (Permutation_in _ Hord) in Hi. apply in_seq in Hi. lia. }
  assert (Hrt : forall i, In i (order_of par n) -> In (rt i) roots).
  { intros i Hi. apply nth_In. apply Hin; auto. }
  rewrite (mapM_total _ _ _ it) in Hp.
  2:{ intros i Hi. unfold at_index. rewrite (nth_error_nth' _ 0) by (apply Hin; auto).
      fold (rt i). unfold it, item_of. pose proof (Hrt i Hi) as Hz.
      destruct (outcome (rt i)) as [r|e] eqn:Ho; auto. rewrite (Hh _ _ Hz Ho). auto. }
  destruct (parallel_apply par pw (process_error_helper proc handled) roots w) as [r1 w1].
  cbn [fst] in Hp. rewrite Hp. unfold wlift. rewrite mapM_map.
  set (key := fun i => match index_of (rt i) roots with Ok k => k | Raise _ => 0%nat end).
  rewrite (mapM_total _ _ _ (fun i => (key i, it i))).
  2:{ intros i Hi. pose proof (Hrt i Hi) as Hz.
      assert (Hr : item_root (it i) = Ok (rt i)).
      { unfold it, item_of. destruct (outcome (rt i)) as [r|e] eqn:Ho; auto. cbn [item_root].
        destruct (Hroot _ _ Hz Ho) as (o & -> & ->). auto. }
      rewrite Hr. cbn [rbind]. unfold key. destruct (index_of_first _ _ Hz) as (k & -> & _). auto. }
  unfold wret. cbn [fst].
  set (keyed := map (fun i => (key i, it i)) (order_of par n)).
  set (L := fold_right (fun '(k, x) acc => insert_key k x acc) [] keyed).
  assert (HL : Permutation L keyed).
  { subst L. generalize keyed. clear. induction keyed as [|[k x] t IH]; cbn; auto.
    rewrite insert_key_perm. auto. }
  assert (HS : StronglySorted (fun a b => (fst a <= fst b)%nat) L).
  { subst L. generalize keyed. clear. induction keyed as [|[k x] t IH]; cbn; [constructor|].
    apply insert_key_sorted; auto. }
  assert (Hkey : forall i, In i (order_of par n) -> first_pos roots (rt i) (key i)).
  { intros i Hi. unfold key. destruct (index_of_first _ _ (Hrt i Hi)) as (k & -> & Hk). auto. }
  assert (HLin : forall p, In p L -> exists i, In i (order_of par n) /\ p = (key i, it i)).
  { intros p Hpl. apply (Permutation_in _ HL) in Hpl. unfold keyed in Hpl.
    apply in_map_iff in Hpl as (i & <- & Hi). eauto. }
  set (zf := fun p : nat * item => nth (fst p) roots 0).
  assert (Hzf : forall i, In i (order_of par n) -> zf (key i, it i) = rt i).
  { intros i Hi. destruct (Hkey i Hi) as [F _]. unfold zf. cbn [fst]. apply nth_error_nth; auto. }
  exists (map zf L). split; [|split].
  - rewrite (Permutation_map zf HL). unfold keyed. rewrite map_map.
    rewrite (map_ext_in _ rt) by (intros i Hi; apply Hzf; auto).
    rewrite (Permutation_map rt Hord). unfold rt, n. clear.
    assert (map (fun i => nth i roots 0) (seq 0 (length roots)) = roots) as ->; auto.
    induction roots as [|z t IH]; cbn [length seq map nth]; auto.
    f_equal. rewrite <- seq_shift, map_map. cbn. auto.
  - intros l1 z l2 z' l3 k k' Hz Hk Hk'.
    apply map_eq_app in Hz as (L1 & L' & HL1 & _ & Hz).
    apply map_eq_cons in Hz as (p & L2' & -> & Hpz & Hz).
    apply map_eq_app in Hz as (L2 & L3' & -> & _ & Hz).
    apply map_eq_cons in Hz as (q & L3 & -> & Hqz & _).
    assert (HP : In p L) by (rewrite HL1; apply in_elt).
    assert (HQ : In q L) by (rewrite HL1; apply in_or_app; right; right; apply in_elt).
    destruct (HLin _ HP) as (i & Hi & ->). destruct (HLin _ HQ) as (j & Hj & ->).
    rewrite (Hzf i Hi) in Hpz. rewrite (Hzf j Hj) in Hqz.
    rewrite (first_pos_unique _ _ _ _ Hk ltac:(rewrite <- Hpz; apply Hkey; auto)).
    rewrite (first_pos_unique _ _ _ _ Hk' ltac:(rewrite <- Hqz; apply Hkey; auto)).
    rewrite HL1 in HS. clear - HS. induction L1 as [|x t IH]; cbn [app] in HS.
    + apply StronglySorted_inv in HS as [_ F]. rewrite Forall_forall in F.
      specialize (F (key j, it j) (in_elt _ _ _)). auto.
    + apply StronglySorted_inv in HS as [HS _]. auto.
  - unfold sorted_key. fold L.
    assert (Hm : map snd L = map (item_of outcome) (map zf L)).
    { rewrite map_map. apply map_ext_in. intros p Hpl. destruct (HLin _ Hpl) as (i & Hi & ->).
      rewrite (Hzf i Hi). reflexivity. }
    rewrite Hm. reflexivity.
Qed.

Lemma batch_unhandled : forall E par pw (proc : Z -> W E run) handled outcome roots w z0 e0,
    (forall z w, fst (proc z w) = outcome z) ->
    Permutation (order_of par (length roots)) (seq 0 (length roots)) ->
    In z0 roots -> outcome z0 = Raise e0 -> handled e0 = false ->
    exists z e, In z roots /\ outcome z = Raise e /\ handled e = false /\
      fst (batch_process_data par pw proc handled roots w) = Raise e.
Proof.
  intros E par pw proc handled outcome roots w z0 e0 Hfree Hord Hz0 Ho0 Hh0.
  unfold batch_process_data, wbind.
  pose proof (parallel_apply_free E _ _ par pw (process_error_helper proc handled)
                _ roots w (fun z w => helper_free E proc handled outcome z w Hfree)) as Hp.
  destruct (parallel_apply par pw (process_error_helper proc handled) roots w) as [r1 w1].
  cbn [fst] in Hp. destruct r1 as [ys|e].
  - exfalso. symmetry in Hp. apply mapM_Ok in Hp.
    destruct (In_nth_error _ _ Hz0) as [i Hi].
    assert (Hio : In i (order_of par (length roots))).
    { apply (Permutation_in _ (Permutation_sym Hord)). apply in_seq.
      assert (nth_error roots i <> None) by congruence. apply nth_error_Some in H. lia. }
    clear - Hp Hio Hi Ho0 Hh0. induction Hp as [|a y l ys Ha _ IH]; [destruct Hio|].
    destruct Hio as [->|Hio]; auto. unfold at_index in Ha. rewrite Hi, Ho0, Hh0 in Ha. discriminate.
  - symmetry in Hp. apply mapM_Raise in Hp as (l1 & i & l2 & Hl & Hr & _).
    assert (Hio : In i (order_of par (length roots))) by (rewrite Hl; apply in_elt).
    apply (Permutation_in _ Hord) in Hio. apply in_seq in Hio.
    unfold at_index in Hr. rewrite (nth_error_nth' _ 0) in Hr by lia.
    destruct (outcome (nth i roots 0)) as [r|e'] eqn:Ho; [discriminate|].
    destruct (handled e') eqn:Hh; [discriminate|]. injection Hr as ->.
    exists (nth i roots 0), e. repeat split; auto. apply nth_In. lia.
Qed.

(** ** The error report *)

(** [d] is a correct report of the items before [i]. *)
Definition report (n : nat) (P : exn -> nat -> Prop) (d : list (exn * list nat)) : Prop :=
  NoDup (map fst d) /\
  (forall e l, In (e, l) d -> StronglySorted lt l /\ l <> [] /\
                              forall i, In i l <-> (i < n)%nat /\ P e i) /\
  (forall e i, (i < n)%nat -> P e i -> exists l, In (e, l) d).

Lemma sorted_snoc : forall l i, StronglySorted lt l -> (forall j, In j l -> (j < i)%nat) ->
    StronglySorted lt (l ++ [i]).
Proof.
  induction l as [|x t IH]; intros i H Hl; cbn [app]; [repeat constructor|].
  apply StronglySorted_inv in H as [H1 H2]. constructor.
  - apply IH; auto. intros; apply Hl; right; auto.
  - apply Forall_app. split; auto. constructor; auto. apply Hl; left; auto.
Qed.

Lemma add_error_in : forall e i d, NoDup (map fst d) ->
    forall e' l', In (e', l') (add_error e i d) <->
      (e' <> e /\ In (e', l') d) \/
      (e' = e /\ ((exists l, In (e, l) d /\ l' = l ++ [i]) \/
                  ((forall l, ~ In (e, l) d) /\ l' = [i]))).
Proof.
  induction d as [|[e1 l1] t IH]; intros Hn e' l'; cbn [add_error].
  - cbn. split.
    + intros [[= <- <-]|[]]. right. split; auto.
    + intros [(_ & [])|(-> & [(l & [] & _)|(_ & ->)])]. auto.
  - inversion Hn as [|? ? Hn1 Hn2]; subst. destruct (exn_eq_dec e e1) as [<-|Hne].
    + split.
      * intros [[= <- <-]|H].
        -- right. split; auto. left. exists l1. split; auto. left; auto.
        -- left. split; [|right; auto]. intros ->. apply Hn1.
           change e with (fst (e, l')). apply in_map; auto.
      * intros [(Hne & [[= -> _]|H])|(-> & [(l & [[= <-]|H] & ->)|(H & ->)])].
        -- congruence.
        -- right; auto.
        -- left; auto.
        -- exfalso. apply Hn1. change e with (fst (e, l)). apply in_map; auto.
        -- exfalso. apply (H l1). left; auto.
    + cbn [In]. rewrite (IH Hn2). split.
      * intros [[= <- <-]|[(H1 & H2)|(-> & [(l & H & ->)|(H & ->)])]].
        -- left. split; auto.
        -- left. auto.
        -- right. split; auto. left. eauto.
        -- right. split; auto. right. split; auto. intros l [[= -> _]|Hl]; [congruence|].
           eapply H; eauto.
      * intros [(H1 & [[= -> ->]|H2])|(-> & [(l & [[= -> _]|H] & ->)|(H & ->)])].
        -- auto.
        -- right. left. auto.
        -- congruence.
        -- right. right. split; auto. left. eauto.
        -- right. right. split; auto. right. split; auto. intros l Hl. apply (H l). right; auto.
Qed.
Lemma add_error_names : forall e i d,
    map fst (add_error e i d) = map fst d \/
    (map fst (add_error e i d) = map fst d ++ [e] /\ ~ In e (map fst d)).
Proof.
  induction d as [|[e1 l1] t IH]; cbn [add_error map fst app In]; auto.
  destruct (exn_eq_dec e e1) as [->|Hne]; cbn [map fst]; auto.
  destruct IH as [->|(-> & H)]; auto. right. split; auto. intros [Hx|Hx]; auto.
Qed.
Lemma add_error_NoDup : forall e i d, NoDup (map fst d) -> NoDup (map fst (add_error e i d)).
Proof.
  intros e i d H. destruct (add_error_names e i d) as [->|(-> & Hn)]; auto.
  apply (Permutation_NoDup (Permutation_cons_append _ _)). constructor; auto.
Qed.

Lemma report_add : forall n P e d,
    (forall e', P e' n <-> e' = e) -> report n P d -> report (S n) P (add_error e n d).
Proof.
  intros n P e d HP (R1 & R2 & R3). split; [apply add_error_NoDup; auto|]. split.
  - intros e' l' H. apply (add_error_in _ _ _ R1) in H as [(Hne & H)|(-> & [(l & H & ->)|(H & ->)])].
    + destruct (R2 _ _ H) as (S1 & S2 & S3). split; auto. split; auto. intros i. rewrite S3.
      split; intros (H1 & H2); split; auto; try lia.
      assert (i <> n); [|lia]. intros ->. apply HP in H2. auto.
    + destruct (R2 _ _ H) as (S1 & S2 & S3). split; [|split].
      * apply sorted_snoc; auto. intros j Hj. apply S3 in Hj. lia.
      * destruct l; discriminate.
      * intros i. rewrite in_app_iff, S3. cbn. split.
        -- intros [(H1 & H2)|[<-|[]]]; split; auto. apply HP; auto.
        -- intros (H1 & H2). assert (i < n \/ i = n)%nat as [Hi|Hi] by lia; [auto|subst; auto].
    + split; [repeat constructor|]. split; [discriminate|]. intros i. cbn. split.
      * intros [<-|[]]. split; auto. apply HP; auto.
      * intros (H1 & H2). assert (i < n \/ i = n)%nat as [Hi|Hi] by lia; [|subst; auto].
        destruct (R3 _ _ Hi H2) as (l & Hl). exfalso. eapply H; eauto.
  - intros e' i Hi Hp. destruct (exn_eq_dec e' e) as [->|Hne].
    + destruct (in_dec exn_eq_dec e (map fst d)) as [Hin|Hout].
      * apply in_map_iff in Hin as ([e1 l] & He & Hin). cbn in He. subst e1.
        exists (l ++ [n]). apply (add_error_in _ _ _ R1). right. split; auto. left. eauto.
      * exists [n]. apply (add_error_in _ _ _ R1). right. split; auto. right. split; auto.
        intros l Hl. apply Hout. change e with (fst (e, l)). apply in_map; auto.
    + assert (i <> n) by (intros ->; apply HP in Hp; auto).
      destruct (R3 e' i) as (l & Hl); [lia|auto|].
      exists l. apply (add_error_in _ _ _ R1). left. auto.
Qed.
Lemma report_keep : forall n P d,
    (forall e', ~ P e' n) -> report n P d -> report (S n) P d.
Proof.
  intros n P d HP (R1 & R2 & R3). split; auto. split.
  - intros e l H. destruct (R2 _ _ H) as (S1 & S2 & S3). split; auto. split; auto.
    intros i. rewrite S3. split; intros (H1 & H2); split; auto.
    assert (i <> n); [|lia]. intros ->. eapply HP; eauto.
  - intros e i Hi Hp. apply (R3 e i); auto. assert (i <> n); [|lia]. intros ->. eapply HP; eauto.
Qed.

Definition fails_at (data : list item) (e : exn) (i : nat) : Prop :=
  exists z, nth_error data i = Some (IErr e z).

Lemma collect_errors_report : forall l2 l1 d,
    report (length l1) (fails_at (l1 ++ l2)) d ->
    report (length (l1 ++ l2)) (fails_at (l1 ++ l2)) (collect_errors (length l1) l2 d).
Proof.
  induction l2 as [|x t IH]; intros l1 d H; cbn [collect_errors].
  - rewrite app_nil_r in *. auto.
  - assert (Hx : nth_error (l1 ++ x :: t) (length l1) = Some x).
    { rewrite nth_error_app2, Nat.sub_diag by lia. auto. }
    specialize (IH (l1 ++ [x])).
    assert (HL : length (l1 ++ [x]) = S (length l1)) by (rewrite app_length; cbn; lia).
    rewrite HL, <- app_assoc in IH. cbn [app] in IH.
    destruct x as [r|e z]; apply IH.
    + apply report_keep; auto. intros e' (z & Hz). congruence.
    + apply report_add; auto. intros e'. split.
      * intros (z' & Hz). congruence.
      * intros ->. exists z. auto.
Qed.

Lemma Forall2_imp : forall A B (P Q : A -> B -> Prop) l1 l2,
    (forall x y, P x y -> Q x y) -> Forall2 P l1 l2 -> Forall2 Q l1 l2.
Proof. intros A B P Q l1 l2 H F. induction F; auto. Qed.
