(** C88: paper_format_efficiency_gain_df. *)
From Coq Require Import Reals String Ascii Sorted Lra.
From Verif Require Import Base ModelRun ModelBoot ModelParallel ModelReal ModelStats ModelNames
     Spec SpecRun SpecReal ProofBase ProofMonad ProofReal ProofStats PropSummary PropTables ProofNames ModelStatsFile
     ModelFrames ProofFrames PropFrames PropGroups PropGainTable.
Local Open Scope string_scope.
Local Open Scope list_scope.
Local Open Scope nat_scope.

(** ** np.rint *)
(** The nearest integer; of two the even one. *)
Theorem C88_rint : forall x, (Rabs (x - IZR (rint x)) <= 1 / 2)%R /\
    (Rabs (x - IZR (rint x)) = 1 / 2 -> Z.even (rint x) = true)%R.
Proof.
  intros x. unfold rint. destruct (base_Int_part x) as [H1 H2].
  assert (Hd : (0 <= x - IZR (Int_part x) < 1)%R) by lra. set (f := Int_part x) in *.
  assert (P1 : IZR (f + 1) = (IZR f + 1)%R) by (rewrite plus_IZR; auto).
  destruct (Rlt_dec (x - IZR f) (1 / 2)) as [Hl|Hl].
  - rewrite Rabs_pos_eq by lra. split; lra.
  - destruct (Rlt_dec (1 / 2) (x - IZR f)) as [Hg|Hg].
    + rewrite P1, Rabs_left by lra. split; lra.
    + assert (E : (x - IZR f = 1 / 2)%R) by lra. destruct (Z.even f) eqn:Ev.
      * rewrite Rabs_pos_eq by lra. split; [lra|auto].
      * rewrite P1, Rabs_left by lra. split; [lra|]. intros _. rewrite Z.even_add, Ev. auto.
Qed.
Print Assumptions C88_rint.

(** ** str.replace *)
Definition occurs (p l : text) : Prop := exists a b, l = a ++ p ++ b.
Lemma starts_false : forall p l, ~ occurs p l -> starts_with p l = false.
Proof.
  induction p as [|x p IH]; intros [|y l] H; cbn; auto; try (exfalso; apply H; exists []; eexists; reflexivity).
  destruct (Ascii.eqb_spec x y) as [->|]; auto. cbn. 
  destruct (starts_with p l) eqn:E; auto. exfalso. apply H. exists [].
  assert (G : forall p l, starts_with p l = true -> exists b, l = p ++ b).
  { clear. induction p as [|x p IH]; intros l H; [eexists; reflexivity|]. destruct l as [|y l]; [discriminate|]. cbn in H.
    destruct (Ascii.eqb_spec x y) as [->|]; [|discriminate]. cbn in H. destruct (IH _ H) as (b & ->). exists b. auto. }
  destruct (G _ _ E) as (b & ->). exists b. auto.
Qed.
Lemma occurs_tail : forall p c l, ~ occurs p (c :: l) -> ~ occurs p l.
Proof. intros p c l H (a & b & ->). apply H. exists (c :: a), b. auto. Qed.
Lemma replace_none : forall old new l, ~ occurs old l -> str_replace old new l = l.
Proof.
  unfold str_replace. induction l as [|c l IH]; intros H; auto. cbn [replace_go].
  rewrite (starts_false _ _ H). f_equal. apply IH. eapply occurs_tail; eauto.
Qed.
Lemma occurs_sub : forall p q l, occurs p q -> occurs q l -> occurs p l.
Proof. intros p q l (a & b & ->) (c & d & ->). exists (c ++ a), (b ++ d). rewrite <- !app_assoc. auto. Qed.

(** ** Names of rows *)
(** A name without 'std', 'dynamic ' and 'efficiency gain'. *)
Definition plain_name (x : text) : Prop := ~ occurs (la "std") x /\ ~ occurs (la "dynamic ") x /\ ~ occurs (la "efficiency gain") x.

Lemma replace_plain : forall (old new : text) l, ~ occurs old l -> replace_go old new 0 l = l.
Proof. exact replace_none. Qed.
Lemma rg_step : forall old new c l, starts_with old (c :: l) = false ->
    replace_go old new 0 (c :: l) = c :: replace_go old new 0 l.
Proof. intros old new c l H. cbn [replace_go]. rewrite H. auto. Qed.
Lemma rg_skip : forall old new a l, replace_go old new (length a) (a ++ l) = replace_go old new 0 l.
Proof. induction a as [|x a IH]; cbn; auto. Qed.
Lemma sw_app : forall a b l, starts_with (a ++ b) (a ++ l) = starts_with b l.
Proof. induction a as [|x a IH]; intros; cbn; auto. rewrite Ascii.eqb_refl. cbn. auto. Qed.
Lemma rg_match : forall c old new l, replace_go (c :: old) new 0 ((c :: old) ++ l) = new ++ replace_go (c :: old) new 0 l.
Proof.
  intros c old new l. cbn [app replace_go].
  assert (H : starts_with (c :: old) (c :: old ++ l) = true).
  { change (c :: old ++ l) with ((c :: old) ++ l). rewrite <- (app_nil_r (c :: old)) at 1. rewrite sw_app. auto. }
  rewrite H. f_equal. replace (length (c :: old) - 1) with (length old) by (cbn; lia). apply rg_skip.
Qed.
(** Replacement after characters at which [old] does not start. *)
Lemma rg_after : forall old new a l, (forall u c v, a = u ++ c :: v -> starts_with old (c :: v ++ l) = false) ->
    replace_go old new 0 (a ++ l) = a ++ replace_go old new 0 l.
Proof.
  induction a as [|x a IH]; intros l H; auto. cbn [app]. rewrite rg_step by (apply (H [] x a); auto). f_equal.
  apply IH. intros u c v ->. apply (H (x :: u) c v). auto.
Qed.
(** No character of [a] starts [old]. *)
Lemma rg_other : forall c old new a l, ~ In c a -> replace_go (c :: old) new 0 (a ++ l) = a ++ replace_go (c :: old) new 0 l.
Proof.
  intros c old new a l H. apply rg_after. intros u x v ->. cbn. destruct (Ascii.eqb_spec c x) as [->|]; auto.
  exfalso. apply H. apply in_or_app. right. left. auto.
Qed.
Theorem C88_row_names : forall x, plain_name x ->
    (forall name, name = x \/ name = la "dynamic " ++ x ->
       row_name row_name_map (la "std") name = la "St.Dev. " ++ x /\
       row_name row_name_map (la "std efficiency gain") name = la "Efficiency gain " ++ x).
Proof.
  intros x (Hs & Hd & He) name Hname.
  assert (N1 : ~ occurs (la "std efficiency gain") x) by (intros K; apply Hs; eapply occurs_sub; [exists [], (la " efficiency gain"); reflexivity|exact K]).
  assert (N2 : ~ occurs (la "St.Dev. efficiency gain") x) by (intros K; apply He; eapply occurs_sub; [exists (la "St.Dev. "), []; reflexivity|exact K]).
  pose proof (starts_false _ _ He) as Se.
  pose proof (replace_plain _ (la "Efficiency gain") _ N1) as R1. pose proof (replace_plain _ (la "Efficiency gain") _ N2) as R2.
  pose proof (replace_plain _ [] _ Hd) as R3. pose proof (replace_plain _ (la "St.Dev.") _ Hs) as R4.
  unfold row_name, row_name_map. cbn [fold_left]. unfold str_replace.
  change (replace_go (la "std efficiency gain")) with (replace_go ("s"%char :: la "td efficiency gain")) in *.
  change (replace_go (la "St.Dev. efficiency gain")) with (replace_go ("S"%char :: la "t.Dev. efficiency gain")) in *.
  change (replace_go (la "dynamic ")) with (replace_go ("d"%char :: la "ynamic ")) in *.
  change (replace_go (la "std")) with (replace_go ("s"%char :: la "td")) in *.
  assert (D : forall u, replace_go ("d"%char :: la "ynamic ") [] 0 (la "dynamic " ++ u) = replace_go ("d"%char :: la "ynamic ") [] 0 u).
  { intros u. change (la "dynamic ") with ("d"%char :: la "ynamic "). rewrite rg_match. reflexivity. }
  (* rows of standard deviations *)
  assert (A1 : replace_go ("s"%char :: la "td efficiency gain") (la "Efficiency gain") 0 (la "std" ++ la " " ++ name) = la "std " ++ name).
  { change (la "std" ++ la " " ++ name) with (la "std " ++ name). rewrite rg_after.
    - f_equal. destruct Hname as [->| ->]; auto. rewrite rg_other by (cbn; intuition discriminate). rewrite R1. auto.
    - intros u c v E. destruct u as [|? [|? [|? [|? [|]]]]]; cbn in E; try discriminate E; inversion E; subst; try reflexivity.
      change (starts_with (la "std " ++ la "efficiency gain") (la "std " ++ name) = false). rewrite sw_app.
      destruct Hname as [->| ->]; [exact Se|reflexivity]. }
  assert (A2 : replace_go ("S"%char :: la "t.Dev. efficiency gain") (la "Efficiency gain") 0 (la "std " ++ name) = la "std " ++ name).
  { rewrite rg_other by (cbn; intuition discriminate). f_equal. destruct Hname as [->| ->]; auto.
    rewrite rg_other by (cbn; intuition discriminate). rewrite R2. auto. }
  assert (A3 : replace_go ("d"%char :: la "ynamic ") [] 0 (la "std " ++ name) = la "std " ++ x).
  { rewrite rg_after.
    - f_equal. destruct Hname as [->| ->]; [auto|rewrite D; auto].
    - intros u c v E. destruct u as [|? [|? [|? [|? [|]]]]]; cbn in E; try discriminate E; inversion E; subst; try reflexivity. }
  assert (A4 : replace_go ("s"%char :: la "td") (la "St.Dev.") 0 (la "std " ++ x) = la "St.Dev. " ++ x).
  { change (la "std " ++ x) with (("s"%char :: la "td") ++ la " " ++ x). rewrite rg_match.
    rewrite rg_other by (cbn; intuition discriminate). rewrite R4. reflexivity. }
  (* rows of gains *)
  assert (B1 : replace_go ("s"%char :: la "td efficiency gain") (la "Efficiency gain") 0 (la "std efficiency gain" ++ la " " ++ name) =
               la "Efficiency gain " ++ name).
  { change (la "std efficiency gain") with ("s"%char :: la "td efficiency gain"). rewrite rg_match.
    rewrite rg_other by (cbn; intuition discriminate). destruct Hname as [->| ->]; [rewrite R1; auto|].
    rewrite rg_other by (cbn; intuition discriminate). rewrite R1. auto. }
  assert (B2 : replace_go ("S"%char :: la "t.Dev. efficiency gain") (la "Efficiency gain") 0 (la "Efficiency gain " ++ name) = la "Efficiency gain " ++ name).
  { rewrite rg_other by (cbn; intuition discriminate). f_equal. destruct Hname as [->| ->]; auto.
    rewrite rg_other by (cbn; intuition discriminate). rewrite R2. auto. }
  assert (B3 : replace_go ("d"%char :: la "ynamic ") [] 0 (la "Efficiency gain " ++ name) = la "Efficiency gain " ++ x).
  { rewrite rg_other by (cbn; intuition discriminate). f_equal. destruct Hname as [->| ->]; [auto|rewrite D; auto]. }
  assert (B4 : replace_go ("s"%char :: la "td") (la "St.Dev.") 0 (la "Efficiency gain " ++ x) = la "Efficiency gain " ++ x).
  { rewrite rg_other by (cbn; intuition discriminate). rewrite R4. reflexivity. }
  rewrite A1, A2, A3, A4, B1, B2, B3, B4. auto.
Qed.
Print Assumptions C88_row_names.
Example C88_row_names_example : plain_name (la "standard") /\ plain_name (la "G=1") /\
    row_name row_name_map (la "std") (la "standard") = la "St.Dev. standard" /\
    row_name row_name_map (la "std efficiency gain") (la "dynamic G=1") = la "Efficiency gain G=1".
Proof.
  assert (G : forall s p, ModelStatsFile.contains (la p) (la s) = false -> ~ occurs (la p) (la s)).
  { intros s p. generalize (la s) (la p). clear. intros l p. induction l as [|c l IH]; cbn [contains]; intros H (a & b & E).
    - destruct a; [|discriminate]. destruct p; [discriminate|discriminate].
    - apply orb_false_iff in H. destruct H as [H1 H2]. destruct a as [|c' a].
      + assert (S : forall p b, starts_with p (p ++ b) = true).
        { clear. induction p as [|x p IH]; intros; cbn; auto. rewrite Ascii.eqb_refl. cbn. auto. }
        rewrite E in H1. cbn [app] in H1. rewrite S in H1. discriminate.
      + injection E as -> ->. apply (IH H2). exists a, b. auto. }
  repeat split; try (apply G; reflexivity); reflexivity.
Qed.
(** Other names: methods which differ only in 'dynamic ' get the same row
    names; 'std' is replaced in names of methods too; in another order of the
    dictionary (Python before 3.7) the rows of gains are not renamed. *)
Theorem C88_row_names_refuted :
    (exists a b, a <> b /\ row_name row_name_map (la "std") a = row_name row_name_map (la "std") b /\
       row_name row_name_map (la "std efficiency gain") a = row_name row_name_map (la "std efficiency gain") b) /\
    row_name row_name_map (la "std") (la "std") = la "St.Dev. St.Dev." /\
    (exists m, Permutation m row_name_map /\
       row_name m (la "std efficiency gain") (la "a") = la "St.Dev. efficiency gain a").
Proof.
  split; [|split].
  - exists (la "a"), (la "dynamic a"). split; [discriminate|]. split; reflexivity.
  - reflexivity.
  - exists [(la "St.Dev. efficiency gain", la "Efficiency gain"); (la "std", la "St.Dev."); (la "dynamic ", []);
            (la "std efficiency gain", la "Efficiency gain")].
    split; [|reflexivity]. unfold row_name_map.
    match goal with |- Permutation [?b; ?d; ?c; ?a] _ => transitivity (a :: [b; d; c]); [symmetry; apply (Permutation_cons_append [b; d; c] a)|] end.
    constructor. constructor. apply perm_swap.
Qed.
Print Assumptions C88_row_names_refuted.

(** ** The rows of the table *)
Definition is_count (c : string) : bool := String.eqb c "samples" || String.eqb c "likelihood calls".
(** Values of a row; in columns of numbers of samples or of likelihood calls
    there is something else. *)
Definition pick (other : nat -> fl) (p : nat * (string * fl)) : fl :=
  if is_count (fst (snd p)) then other (fst p) else snd (snd p).
Definition shown (cols : list string) (other : nat -> fl) (v : list fl) : list fl :=
  map (pick other) (combine (seq 0 (length cols)) (combine cols v)).
Definition rounded (means : list fl) (k : nat) : fl :=
  match nth k means None with Some x => Some (IZR (rint x)) | None => None end.
Definition paper_rows (cols : list string) (short : Z -> text) (d : list (Z * method_rows)) : rows (text * string) :=
  flat_map (fun '(n, m) =>
    [((la "St.Dev. " ++ short n, "value"), shown cols (rounded (map s_mean (m_sum m))) (map s_std (m_sum m)));
     ((la "St.Dev. " ++ short n, "uncertainty"), shown cols (fun _ => None) (map s_std_unc (m_sum m)))]) d ++
  flat_map (fun '(n, m) =>
    [((la "Efficiency gain " ++ short n, "value"), shown cols (fun _ => None) (fst (gain_of (m_gain m))));
     ((la "Efficiency gain " ++ short n, "uncertainty"), shown cols (fun _ => None) (snd (gain_of (m_gain m))))]) (tl d).

Definition step (cols : list string) (col : string) (other : nat -> fl) (v : list fl) : list fl :=
  match column cols col with Some j => set_nth j (other j) v | None => v end.
Lemma set_nth_length : forall A i (v : A) l, length (set_nth i v l) = length l.
Proof. intros A i v l. revert i. induction l as [|x l IH]; destruct i; cbn; auto. Qed.
Lemma nth_set_nth : forall A i j (v d : A) l, j < length l -> nth j (set_nth i v l) d = if j =? i then v else nth j l d.
Proof.
  intros A i j v d l. revert i j. induction l as [|x l IH]; intros i j H; [cbn in H; lia|].
  destruct i, j; cbn in *; auto. apply IH. lia.
Qed.
Lemma code_first : forall names col j, NoDup names -> column names col = Some j -> forall k c, nth_error names k = Some c -> (c = col <-> k = j).
Proof.
  intros names col j Hd H k c Hk. unfold column in H. destruct (existsb _ _) eqn:E; [|discriminate]. injection H as <-.
  apply existsb_in in E. pose proof (code_nth col names E) as Hc. split.
  - intros ->. apply (proj1 (NoDup_nth_error names) Hd); [apply nth_error_Some; congruence|congruence].
  - intros ->. congruence.
Qed.
Lemma column_none : forall names col, column names col = None -> ~ In col names.
Proof. intros names col H. unfold column in H. destruct (existsb _ _) eqn:E; [discriminate|]. apply existsb_notin. auto. Qed.
Lemma steps_shown : forall cols other v, NoDup cols -> length v = length cols ->
    step cols "likelihood calls" other (step cols "samples" other v) = shown cols other v.
Proof.
  intros cols other v Hd Hl.
  assert (Hls : forall col v, length (step cols col other v) = length v).
  { intros col v'. unfold step. destruct (column cols col); auto. apply set_nth_length. }
  assert (Hlc : length (combine (seq 0 (length cols)) (combine cols v)) = length cols).
  { rewrite !combine_length, seq_length. lia. }
  apply (nth_ext _ _ None None).
  - rewrite !Hls. unfold shown. rewrite map_length. lia.
  - intros k Hk. rewrite !Hls, Hl in Hk.
    destruct (nth_error cols k) as [c|] eqn:Ec; [|apply nth_error_None in Ec; lia].
    assert (Hn : forall col v', length v' = length cols -> nth k (step cols col other v') None = if String.eqb c col then other k else nth k v' None).
    { intros col v' Hv. unfold step. destruct (column cols col) as [j|] eqn:Ej.
      - rewrite nth_set_nth by lia. pose proof (code_first cols col j Hd Ej k c Ec) as Hcj.
        destruct (String.eqb_spec c col); destruct (Nat.eqb_spec k j); try tauto. subst. auto.
      - destruct (String.eqb_spec c col); auto. subst. exfalso. apply (column_none _ _ Ej). eapply nth_error_In; eauto. }
    rewrite Hn by (rewrite Hls; auto). rewrite Hn by auto.
    unfold shown. set (cc := combine (seq 0 (length cols)) (combine cols v)) in *.
    rewrite (nth_indep (map (pick other) cc) None (pick other (0, ("", None)))) by (rewrite map_length; lia).
    rewrite (map_nth (pick other)). unfold cc, pick.
    rewrite combine_nth by (rewrite seq_length, combine_length; lia). rewrite combine_nth by auto.
    rewrite seq_nth by auto. cbn [Nat.add fst snd]. rewrite (nth_error_nth cols k "" Ec). unfold is_count.
    destruct (String.eqb c "samples"); destruct (String.eqb c "likelihood calls"); auto.
Qed.
(** One of the columns. *)
Lemma blocks_length : forall name get d, length (block name get d) = 2 * length d.
Proof. induction d as [|(n & m) d IH]; auto. cbn [block flat_map app length]. fold (block name get d). rewrite IH. lia. Qed.
Definition both (cols : list string) (col : string) (o1 o2 : method_rows -> nat -> fl) (get : method_rows -> list fl * list fl) (m : method_rows) :=
  (step cols col (o1 m) (fst (get m)), step cols col (o2 m) (snd (get m))).
Definition mean_values (d : list (Z * method_rows)) : rows gain_label :=
  map (fun '(n, m) => (("mean", (n, "value")), map s_mean (m_sum m))) d.
Lemma map2_block : forall j name get d e o1 (l : list fl),
    map2 (fun (p : gain_label * list fl) v => (fst p, set_nth j v (snd p)))
         (block name get d ++ e) (concat (map (fun x => [o1 (snd x) j; None]) d) ++ l) =
    block name (fun m => (set_nth j (o1 m j) (fst (get m)), set_nth j None (snd (get m)))) d ++
    map2 (fun (p : gain_label * list fl) v => (fst p, set_nth j v (snd p))) e l.
Proof.
  intros j name get d e o1 l. induction d as [|(n & m) d IH]; auto. cbn [block flat_map app map concat snd].
  fold (block name get d). unfold map2 in *. cbn [combine map fst snd app].
  match goal with |- _ :: _ :: ?u = _ :: _ :: ?v => change (u = v) in IH || idtac end.
  do 2 f_equal. exact IH.
Qed.
Lemma map2_block_none : forall j name get d,
    map2 (fun (p : gain_label * list fl) v => (fst p, set_nth j v (snd p))) (block name get d) (repeat None (2 * length d)) =
    block name (fun m => (set_nth j None (fst (get m)), set_nth j None (snd (get m)))) d.
Proof.
  intros j name get d. induction d as [|(n & m) d IH]; auto. cbn [block flat_map app length].
  fold (block name get d). replace (2 * S (length d)) with (S (S (2 * length d))) by lia. cbn [repeat].
  unfold map2 in *. cbn [combine map fst snd]. do 2 f_equal. exact IH.
Qed.
Lemma paper_column_rows : forall cols col d e g1 g2,
    length e <= length d ->
    (forall j, column cols col = Some j -> Forall (fun x => nth j (map s_mean (m_sum (snd x))) None <> None) d) ->
    paper_column cols (mean_values d) (block "std" g1 d ++ block "std efficiency gain" g2 e) col =
    Ok (block "std" (both cols col (fun m => rounded (map s_mean (m_sum m))) (fun _ _ => None) g1) d ++
        block "std efficiency gain" (both cols col (fun _ _ => None) (fun _ _ => None) g2) e).
Proof.
  intros cols col d e g1 g2 Hl Hf. unfold paper_column, both, step. destruct (column cols col) as [j|] eqn:Ej.
  - specialize (Hf j eq_refl).
    assert (E : mapM (fun p : gain_label * list fl => match nth j (snd p) None with
                                  | Some x => Ok [Some (IZR (rint x)); None]
                                  | None => Raise ValueError
                                  end) (mean_values d) = Ok (map (fun x => [rounded (map s_mean (m_sum (snd x))) j; None]) d)).
    { clear - Hf. induction Hf as [|(n & m) d Hx Hf IH]; auto. cbn [mean_values map mapM snd]. cbn [snd] in Hx.
      unfold rounded at 1. destruct (nth j (map s_mean (m_sum m)) None) as [x|]; [|congruence]. cbn [rbind].
      unfold mean_values in IH. rewrite IH. reflexivity. }
    rewrite E. cbn [rbind].
    assert (L : length (concat (map (fun x : Z * method_rows => [rounded (map s_mean (m_sum (snd x))) j; None]) d)) = 2 * length d).
    { clear. induction d as [|x d IH]; auto. cbn [map concat app length]. rewrite IH. lia. }
    match goal with |- context [map2 _ ?q _] => set (paper := q) end.
    assert (LP : length paper = 2 * length d + 2 * length e).
    { unfold paper. etransitivity; [apply app_length|]. f_equal; apply blocks_length. }
    rewrite L, LP.
    replace (2 * length d + 2 * length e - 2 * length d) with (2 * length e) by lia.
    rewrite app_length, L, repeat_length, Nat.eqb_refl.
    unfold paper. rewrite (map2_block j "std" g1 d _ (fun m k => rounded (map s_mean (m_sum m)) k) (repeat None (2 * length e))).
    rewrite map2_block_none. reflexivity.
  - reflexivity.
Qed.

Lemma gain_lengths : forall py3 names methods nest tv rm adj d, efficiency_gain_df py3 names methods nest tv rm adj = Ok d ->
    Forall (fun x => length (m_sum (snd x)) = nest) d /\
    Forall (fun x => forall l, m_gain (snd x) = Some l -> length l = nest) d.
Proof.
  intros py3 names methods nest tv rm adj d H.
  destruct (gain_table _ _ _ _ _ _ _ _ H) as (Hn & Hl & Hf & name0 & base & Hb & He).
  assert (Hlen : length d = length names) by (rewrite <- Hf, map_length; auto).
  assert (S : forall values cs, summary_df_from_list py3 values nest tv rm = Ok cs -> length cs = nest).
  { clear. intros values cs H. unfold summary_df_from_list in H. destruct (mapM _ values); [|discriminate]. cbn [rbind] in H.
    destruct values as [|v vs]; [discriminate|]. apply summary_cols in H; [|apply rows_of_cols].
    destruct H as (f & _ & _ & E & _). apply (f_equal (@length _)) in E. rewrite !map_length, rows_of_length in E. auto. }
  assert (G : forall x, In x d -> exists i v, nth_error d i = Some x /\ nth_error methods i = Some v).
  { intros x Hx. apply In_nth_error in Hx. destruct Hx as (i & Hi). exists i.
    destruct (nth_error methods i) as [v|] eqn:Hv; [eauto|]. apply nth_error_None in Hv.
    assert (i < length d) by (apply nth_error_Some; congruence). lia. }
  assert (B : length (m_sum base) = nest).
  { destruct d as [|(n & m) d]; [discriminate|]. cbn in Hb. injection Hb as -> ->.
    destruct (G (name0, base) (or_introl eq_refl)) as (i & v & Hi & Hv). destruct (He _ _ _ _ Hi Hv) as (E & _). eapply S; eauto. }
  split; apply Forall_forall; intros (n & m) Hx; destruct (G _ Hx) as (i & v & Hi & Hv);
    destruct (He _ _ _ _ Hi Hv) as (E & G0 & G1); cbn [snd].
  - eapply S; eauto.
  - intros l El. destruct i as [|i]; [destruct (G0 eq_refl); congruence|]. destruct G1 as (G1 & _); [lia|].
    rewrite G1 in El. injection El as <-. unfold gains, map2. rewrite map_length, combine_length, B.
    rewrite (S _ _ E). lia.
Qed.
Lemma filter_block : forall (f : gain_label * list fl -> bool) name get d b,
    (forall p, fst (fst p) = name -> f p = b) -> filter f (block name get d) = if b then block name get d else [].
Proof.
  intros f name get d b Hf. induction d as [|(n & m) d IH]; [destruct b; auto|]. cbn [block flat_map app filter]. fold (block name get d).
  rewrite !Hf by auto. destruct b; [do 2 f_equal|]; exact IH.
Qed.
Lemma filter_true : forall (f : gain_label * list fl -> bool) first,
    (forall p, fst (fst p) = "true values" -> f p = false) -> filter f (map (fun t => (("true values", (0%Z, "value")), t)) first) = [].
Proof. intros f first Hf. induction first as [|t l IH]; auto. cbn [map filter]. rewrite Hf by auto. exact IH. Qed.
Lemma has_block : forall name get d e l, d <> [] ->
    existsb (fun p : gain_label * list fl => String.eqb (fst (fst p)) name) (l ++ block name get d ++ e) = true.
Proof.
  intros name get [|(n & m) d] e l H; [congruence|]. rewrite existsb_app. cbn. rewrite String.eqb_refl. cbn. apply orb_true_r.
Qed.
Lemma paper_parts : forall first rm d,
    filter (fun p => String.eqb (fst (fst p)) "std" || String.eqb (fst (fst p)) "std efficiency gain") (gain_table_rows first rm d) =
    block "std" (fun m => (map s_std (m_sum m), map s_std_unc (m_sum m))) d ++ block "std efficiency gain" (fun m => gain_of (m_gain m)) (tl d) /\
    filter (fun p => String.eqb (fst (fst p)) "mean" && String.eqb (snd (snd (fst p))) "value") (gain_table_rows first rm d) = mean_values d.
Proof.
  intros first rm d. unfold gain_table_rows. rewrite !filter_app. split.
  - rewrite filter_true by (intros p ->; auto). rewrite (filter_block _ "mean" _ _ false) by (intros p ->; auto).
    rewrite (filter_block _ "std" _ _ true) by (intros p ->; auto).
    rewrite (filter_block _ "std efficiency gain" _ _ true) by (intros p ->; auto).
    cbn [app]. f_equal.
    destruct rm; cbn [app filter]; [|rewrite app_nil_r; auto].
    rewrite (filter_block _ "rmse" _ _ false) by (intros p ->; auto).
    rewrite (filter_block _ "rmse efficiency gain" _ _ false) by (intros p ->; auto). cbn [app]. apply app_nil_r.
  - rewrite filter_true by (intros p ->; auto).
    rewrite (filter_block _ "std" _ _ false) by (intros p ->; auto).
    rewrite (filter_block _ "std efficiency gain" _ _ false) by (intros p ->; auto).
    assert (M : filter (fun p : gain_label * list fl => String.eqb (fst (fst p)) "mean" && String.eqb (snd (snd (fst p))) "value")
                  (block "mean" (fun m => (map s_mean (m_sum m), map s_mean_unc (m_sum m))) d) = mean_values d).
    { induction d as [|(n & m) d IH]; auto. cbn [block flat_map app filter fst snd String.eqb]. cbn -[block filter mean_values].
      cbn [mean_values map]. f_equal. exact IH. }
    cbn [app]. etransitivity; [apply f_equal2; [exact M|]|apply app_nil_r].
    destruct rm; auto. rewrite (filter_block _ "rmse" _ _ false) by (intros p ->; auto).
    rewrite (filter_block _ "rmse efficiency gain" _ _ false) by (intros p ->; auto). auto.
Qed.
Lemma paper_unfold : forall txt cols first rm d, 2 <= length d ->
    paper_format_efficiency_gain_df row_name_map txt cols (gain_table_rows first rm d) =
    let! paper := paper_column cols (mean_values d)
       (block "std" (fun m => (map s_std (m_sum m), map s_std_unc (m_sum m))) d ++ block "std efficiency gain" (fun m => gain_of (m_gain m)) (tl d)) "samples" in
    let! paper := paper_column cols (mean_values d) paper "likelihood calls" in
    Ok (map (fun p => ((row_name row_name_map (la (fst (fst p))) (txt (fst (snd (fst p)))), snd (snd (fst p))), snd p)) paper).
Proof.
  intros txt cols first rm d Hd. unfold paper_format_efficiency_gain_df. cbv beta zeta.
  destruct (paper_parts first rm d) as (P1 & P2).
  assert (Hne : d <> []) by (destruct d; [cbn in Hd; lia|discriminate]).
  assert (Hne' : tl d <> []) by (destruct d as [|? [|]]; cbn in Hd; try lia; discriminate).
  assert (H1 : existsb (fun p : gain_label * list fl => String.eqb (fst (fst p)) "std") (gain_table_rows first rm d) = true).
  { unfold gain_table_rows. rewrite app_assoc. apply has_block. auto. }
  assert (H2 : existsb (fun p : gain_label * list fl => String.eqb (fst (fst p)) "std efficiency gain") (gain_table_rows first rm d) = true).
  { unfold gain_table_rows. rewrite !app_assoc. rewrite <- app_assoc. apply has_block. auto. }
  assert (H3 : existsb (fun p : gain_label * list fl => String.eqb (fst (fst p)) "mean") (gain_table_rows first rm d) = true).
  { unfold gain_table_rows. apply has_block. auto. }
  match goal with |- (if ?a && ?b && ?c then _ else _) = _ =>
    replace a with true by (symmetry; exact H1); replace b with true by (symmetry; exact H2); replace c with true by (symmetry; exact H3) end.
  cbn [andb].
  match goal with |- rbind (paper_column _ ?a ?b _) _ = _ => replace a with (mean_values d) by (symmetry; exact P2);
    replace b with (block "std" (fun m => (map s_std (m_sum m), map s_std_unc (m_sum m))) d ++ block "std efficiency gain" (fun m => gain_of (m_gain m)) (tl d)) by (symmetry; exact P1) end.
  reflexivity.
Qed.
Lemma column_count : forall cols col j, column cols col = Some j -> nth_error cols j = Some col.
Proof.
  intros cols col j H. unfold column in H. destruct (existsb _ _) eqn:E; [|discriminate]. injection H as <-.
  apply code_nth, existsb_in. auto.
Qed.

(** The rows of the table in the format of the paper: standard deviations of
    all methods, gains of all but the first; numbers of samples and of
    likelihood calls are replaced by their rounded means. *)
Theorem C88_paper : forall py3 names methods cols tv it rm adj d table txt short,
    NoDup cols -> efficiency_gain_df py3 names methods (length cols) tv rm adj = Ok d -> 2 <= length names ->
    efficiency_gain_frame py3 names methods (length cols) tv it rm adj = Ok table ->
    (forall n, In n names -> plain_name (short n) /\ (txt n = short n \/ txt n = la "dynamic " ++ short n)) ->
    let out := paper_format_efficiency_gain_df row_name_map txt cols table in
    ((forall n m k c, In (n, m) d -> nth_error cols k = Some c -> is_count c = true -> nth k (map s_mean (m_sum m)) None <> None) ->
       out = Ok (paper_rows cols short d)) /\
    ((exists n m k c, In (n, m) d /\ nth_error cols k = Some c /\ is_count c = true /\ nth k (map s_mean (m_sum m)) None = None) ->
       out = Raise ValueError).
Proof.
  intros py3 names methods cols tv it rm adj d table txt short Hc H Hn Ht Hs out.
  destruct (C87_gain_table _ _ _ _ _ it _ _ _ H) as (first & T & _ & _ & T2 & _ & T4). rewrite T in Ht. injection Ht as <-.
  destruct (gain_lengths _ _ _ _ _ _ _ _ H) as (L1 & L2).
  assert (Hd : 2 <= length d) by (rewrite <- T2, map_length in Hn; auto).
  unfold out. rewrite paper_unfold by auto.
  assert (Htl : length (tl d) <= length d) by (destruct d; cbn; lia).
  split.
  - intros Hf.
    assert (Hcol : forall col j, is_count col = true -> column cols col = Some j -> Forall (fun x => nth j (map s_mean (m_sum (snd x))) None <> None) d).
    { intros col j Hi Hj. apply Forall_forall. intros (n & m) Hx. cbn [snd]. eapply Hf; eauto. apply column_count. auto. }
    rewrite paper_column_rows by (auto; intros; apply (Hcol "samples"); auto). cbn [rbind].
    rewrite paper_column_rows by (auto; intros; apply (Hcol "likelihood calls"); auto). cbn [rbind].
    apply (f_equal (@Ok _)). etransitivity; [apply map_app|]. unfold paper_rows.
    assert (Hin : forall x, In x d -> In (fst x) names) by (intros x Hx; rewrite <- T2; apply in_map; auto).
    rewrite Forall_forall in L1, L2, T4. apply f_equal2.
    + clear - Hin Hs L1 Hc. induction d as [|(n & m) d IH]; auto. cbn [block flat_map map app fst snd].
      destruct (Hs n (Hin _ (or_introl eq_refl))) as (Hp & Hx). destruct (C88_row_names (short n) Hp (txt n) Hx) as (R1 & _).
      rewrite R1. specialize (L1 _ (or_introl eq_refl)) as L0. cbn [snd] in L0.
      unfold both at 1 2. cbn [fst snd]. unfold both at 1 2. cbn [fst snd].
      do 2 (apply f_equal2; [f_equal; apply steps_shown; auto; rewrite map_length; auto|]).
      apply IH; intros; [apply L1|apply Hin]; right; auto.
    + assert (Hin' : forall x, In x (tl d) -> In x d) by (destruct d; cbn; auto).
      set (e := tl d) in *. clearbody e. clear - Hin Hs L2 Hc T4 Hin'. induction e as [|(n & m) e IH]; auto. cbn [block flat_map map app fst snd].
      destruct (Hs n (Hin (n, m) (Hin' _ (or_introl eq_refl)))) as (Hp & Hx). destruct (C88_row_names (short n) Hp (txt n) Hx) as (_ & R1).
      rewrite R1. destruct (T4 _ (or_introl eq_refl)) as (Tg & _). cbn [snd] in Tg.
      assert (L0 : length (fst (gain_of (m_gain m))) = length cols /\ length (snd (gain_of (m_gain m))) = length cols).
      { destruct (m_gain m) as [l|] eqn:El; [|congruence]. cbn [gain_of fst snd]. rewrite !map_length.
        specialize (L2 _ (Hin' _ (or_introl eq_refl)) l El). auto. }
      unfold both at 1 2. cbn [fst snd]. unfold both at 1 2. cbn [fst snd].
      do 2 (apply f_equal2; [f_equal; apply steps_shown; auto; apply L0|]).
      apply IH; intros; [apply T4|apply Hin']; right; auto.
  - intros (n & m & k & c & Hx & Hk & Hi & Hnan).
    assert (Bad : forall col d1 g1 g2, is_count col = true -> c = col ->
      paper_column cols (mean_values d) (block "std" g1 d1 ++ block "std efficiency gain" g2 (tl d)) col = Raise ValueError).
    { intros col d1 g1 g2 Hcc ->. unfold paper_column.
      destruct (column cols col) as [j|] eqn:Ej.
      - assert (k = j) by (eapply code_first; eauto). subst j.
        assert (E : mapM (fun p : gain_label * list fl => match nth k (snd p) None with
                                  | Some x => Ok [Some (IZR (rint x)); None]
                                  | None => Raise ValueError
                                  end) (mean_values d) = Raise ValueError).
        { clear - Hx Hnan. induction d as [|(n' & m') d IH]; [destruct Hx|]. cbn [mean_values map mapM snd]. destruct Hx as [E|Hx].
          - injection E as -> ->. rewrite Hnan. reflexivity.
          - destruct (nth k (map s_mean (m_sum m')) None); [|reflexivity]. cbn [rbind]. unfold mean_values in IH. rewrite IH by auto. reflexivity. }
        rewrite E. reflexivity.
      - exfalso. apply (column_none _ _ Ej). eapply nth_error_In; eauto. }
    unfold is_count in Hi. apply orb_true_iff in Hi. destruct Hi as [Hi|Hi]; apply String.eqb_eq in Hi; subst c.
    + rewrite Bad by auto. reflexivity.
    + destruct (paper_column cols (mean_values d) _ "samples") as [p1|e1] eqn:E1; cbn [rbind].
      * assert (Hp : exists g1 g2, p1 = block "std" g1 d ++ block "std efficiency gain" g2 (tl d)).
        { set (fine := fun x : Z * method_rows => match column cols "samples" with Some j => nth j (map s_mean (m_sum (snd x))) None <> None | None => True end).
          assert (D : forall x, {fine x} + {~ fine x}).
          { intros x. unfold fine. destruct (column cols "samples") as [n0|]; [|left; auto]. destruct (nth n0 (map s_mean (m_sum (snd x))) None); [left; discriminate|right; intros Hq; apply Hq; auto]. }
          destruct (Forall_Exists_dec fine D d) as [A|A]; unfold fine in A.
          - rewrite paper_column_rows in E1; auto.
            + injection E1 as <-. eauto.
            + intros j Hj. rewrite Hj in A. exact A.
          - exfalso. destruct (column cols "samples") as [j|] eqn:Ej; [|apply Exists_exists in A; destruct A as (? & _ & A); apply A; auto].
            unfold paper_column in E1. rewrite Ej in E1.
            assert (E : mapM (fun p : gain_label * list fl => match nth j (snd p) None with
                                  | Some x => Ok [Some (IZR (rint x)); None]
                                  | None => Raise ValueError
                                  end) (mean_values d) = Raise ValueError).
            { clear - A. induction A as [(n & m) d A|(n & m) d A IH]; cbn [mean_values map mapM snd].
              - cbn [snd] in A. destruct (nth j (map s_mean (m_sum m)) None); [exfalso; apply A; discriminate|reflexivity].
              - destruct (nth j (map s_mean (m_sum m)) None); [|reflexivity]. cbn [rbind]. unfold mean_values in IH. rewrite IH by auto. reflexivity. }
            rewrite E in E1. discriminate. }
        destruct Hp as (g1 & g2 & ->). rewrite Bad by auto. reflexivity.
      * unfold paper_column in E1. destruct (column cols "samples") as [j|]; [|discriminate].
        destruct (mapM _ (mean_values d)) as [v|e2] eqn:Em; cbn [rbind] in E1.
        -- match type of E1 with (if ?b then _ else _) = _ => destruct b end; [discriminate|]. injection E1 as <-. auto.
        -- injection E1 as <-. apply mapM_raise in Em. destruct Em as (x & _ & Em). destruct (nth j (snd x) None); [discriminate|]. injection Em as <-. auto.
Qed.
Print Assumptions C88_paper.
(** Two methods with the numbers of samples 10, 13 and 20, 23; the columns are
    samples and logz. *)
Example C88_paper_example : forall a b c d,
    let names := [7; 5]%Z in
    let methods := [[[Some 10%R; Some a]; [Some 13%R; Some b]]; [[Some 20%R; Some c]; [Some 23%R; Some d]]] in
    let txt n := if Z.eqb n 7 then la "G" else la "dynamic H" in
    exists table out, efficiency_gain_frame true names methods 2 None true false None = Ok table /\
      paper_format_efficiency_gain_df row_name_map txt ["samples"; "logz"] table = Ok out /\
      map fst out = [(la "St.Dev. G", "value"); (la "St.Dev. G", "uncertainty"); (la "St.Dev. H", "value"); (la "St.Dev. H", "uncertainty");
                     (la "Efficiency gain H", "value"); (la "Efficiency gain H", "uncertainty")] /\
      map (fun p => hd None (snd p)) out = [Some 12; None; Some 22; None; None; None]%R.
Proof.
  intros a b c d names methods txt.
  assert (E : exists g, efficiency_gain_df true names methods 2 None false None = Ok g)
    by (unfold efficiency_gain_df; destruct (ListDec.NoDup_dec _ _) as [|N];
        [eexists; reflexivity|exfalso; apply N; repeat constructor; cbn; intuition discriminate]).
  destruct E as (g & E).
  destruct (C87_gain_table _ _ _ _ _ true _ _ _ E) as (first & T & _ & _ & T2 & _ & _).
  assert (M : map (fun x => hd None (map s_mean (m_sum (snd x)))) g = [Some (23 / 2); Some (43 / 2)]%R).
  { revert E. unfold efficiency_gain_df. destruct (ListDec.NoDup_dec _ _) as [N|N]; [|discriminate]. intros E. injection E as <-.
    cbn -[Rplus Rmult Rdiv Rinv sqrt Rminus IZR]. repeat (f_equal; try lra). }
  exists (gain_table_rows first false g).
  pose (short := fun n => if Z.eqb n 7 then la "G" else la "H").
  exists (paper_rows ["samples"; "logz"] short g). split; [exact T|].
  destruct g as [|(n1 & m1) [|(n2 & m2) [|]]]; try discriminate T2. injection T2 as -> ->.
  cbn [map hd snd] in M. injection M as M1 M2.
  assert (Q : rint (23 / 2) = 12%Z /\ rint (43 / 2) = 22%Z).
  { assert (G : forall z, Z.even z = true -> rint (IZR z - 1 / 2) = z).
    { intros z Hz. destruct (C88_rint (IZR z - 1 / 2)) as (Q1 & Q2). set (r := rint _) in *.
      assert (Q0 : (- (1 / 2) <= IZR z - 1 / 2 - IZR r <= 1 / 2)%R) by (revert Q1; unfold Rabs; destruct (Rcase_abs _); lra).
      assert (z - 1 <= r)%Z by (apply le_IZR; rewrite minus_IZR; lra).
      assert (r <= z)%Z by (apply le_IZR; lra).
      destruct (Z.eq_dec r z) as [|Nz]; auto. assert (Er : r = (z - 1)%Z) by lia.
      rewrite Er in Q2. rewrite minus_IZR, Rabs_pos_eq in Q2 by lra.
      rewrite Z.even_sub, Hz in Q2. discriminate Q2. lra. }
    split; [rewrite <- (G 12%Z eq_refl)|rewrite <- (G 22%Z eq_refl)]; f_equal; lra. }
  assert (D : NoDup ["samples"; "logz"]) by (repeat constructor; cbn; intuition discriminate).
  destruct (C88_paper true names methods ["samples"; "logz"] None true false None [(7%Z, m1); (5%Z, m2)] _ txt short D E (le_n 2) T) as (P & _).
  { intros n Hn. assert (G : forall s p, ModelStatsFile.contains (la p) (la s) = false -> ~ occurs (la p) (la s)).
    { intros s p. generalize (la s) (la p). clear. intros l p. induction l as [|c l IH]; cbn [contains]; intros H (a & b & E).
      - destruct a; [|discriminate]. destruct p; [discriminate|discriminate].
      - apply orb_false_iff in H. destruct H as (H1 & H2). destruct a as [|x a].
        + cbn [app] in E. rewrite E in H1. clear - H1. revert H1. induction p; cbn; [discriminate|]. rewrite Ascii.eqb_refl. auto.
        + injection E as -> E. apply IH; auto. exists a, b. auto. }
    destruct Hn as [<-|[<-|[]]]; (split; [repeat split; apply G; reflexivity|]); [left|right]; reflexivity. }
  rewrite P.
  - split; [reflexivity|]. split; [reflexivity|].
    cbn [paper_rows flat_map app map snd tl]. unfold shown. destruct (map s_mean (m_sum m1)) as [|x1 l1] eqn:L1; [discriminate|].
    destruct (map s_mean (m_sum m2)) as [|x2 l2] eqn:L2; [discriminate|]. cbn [hd] in M1, M2. subst x1 x2.
    destruct (gain_lengths _ _ _ _ _ _ _ _ E) as (K1 & K2).
    inversion_clear K1 as [|? ? K3 K4]. inversion_clear K4 as [|? ? K5 _]. inversion_clear K2 as [|? ? _ K6]. inversion_clear K6 as [|? ? K7 _].
    cbn [snd] in K3, K5, K7.
    assert (H1 : forall l : list fl, length l = 2 -> forall o, hd None (map (pick o) (combine (seq 0 2) (combine ["samples"; "logz"] l))) = o 0).
    { intros l Hl o. destruct l as [|? [|? [|]]]; try discriminate. reflexivity. }
    destruct (C87_gain_table _ _ _ _ _ true _ _ _ E) as (_ & _ & _ & _ & _ & _ & K8). cbn [tl] in K8.
    inversion_clear K8 as [|? ? K9 _]. destruct K9 as (K9 & _). cbn [snd] in K9. destruct (m_gain m2) as [lg|]; [|congruence].
    specialize (K7 lg eq_refl). cbn [length gain_of fst snd].
    rewrite !H1 by (rewrite map_length; auto). unfold rounded. cbn [nth]. destruct Q as (-> & ->). reflexivity.
  - intros n m k c' Hin Hk Hc. destruct k as [|[|[|]]]; try discriminate; cbn in Hk; injection Hk as <-; try discriminate.
    destruct Hin as [Hin|[Hin|[]]]; injection Hin as _ <-;
      match goal with |- nth 0 ?l None <> None => destruct l; [discriminate|]; cbn [hd nth] in *; congruence end.
Qed.
