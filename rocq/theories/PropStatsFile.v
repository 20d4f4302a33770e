(** C50: .stats files. *)
From Coq Require Import List String Ascii Bool ZArith Lia.
From Verif Require Import Base ProofBase ModelNames ProofNames ModelStatsFile ProofStatsFile.
Import ListNotations.
Local Open Scope list_scope.
Local Open Scope nat_scope.

(** What is read in place of [o]: lists of different lengths are cut to the
    shorter one, the number of clusters is that of the lists, a list of one
    number is read as the number, and a tuple as a list. *)
Definition counts_read (v : counts) : counts :=
  match v with
  | CNum z | CList [z] | CTuple [z] => CNum z
  | CList l | CTuple l => CList l
  | CNan => CNan
  end.
Definition averages_read {F} (v : averages F) : averages F :=
  match v with
  | ANum z | AList [z] | ATuple [z] => ANum z
  | AList l | ATuple l => AList l
  end.
Definition as_read {F} (o : stats F) : stats F :=
  let n := Nat.min (length (st_logZs o)) (length (st_logZerrs o)) in
  let means := dflt (st_means o) [] in let errs := dflt (st_errs o) [] in
  let k := Nat.min (length means) (length errs) in
  mkStats (st_root o) (st_base o) (st_logZ o) (st_logZerr o) (firstn n (st_logZs o)) (firstn n (st_logZerrs o))
          (Z.of_nat n) (st_nposterior o) (st_nequals o) (st_ndead o) (st_nlive o)
          (counts_read (st_nlike o)) (averages_read (st_avnlike o)) (averages_read (st_avnlikeslice o))
          (Some (firstn k means)) (Some (firstn k errs)).

Lemma combine_fst_min : forall A B (a : list A) (b : list B),
    map fst (combine a b) = firstn (Nat.min (length a) (length b)) a /\
    map snd (combine a b) = firstn (Nat.min (length a) (length b)) b.
Proof.
  induction a as [|x a IH]; intros [|y b]; cbn; auto. destruct (IH b) as [-> ->]. auto.
Qed.
Lemma path_ext : forall a b e, path_join a (b ++ la e) = path_join a b ++ la e \/ b = [].
Proof.
  intros a [|c b] e; [right; auto|left]. unfold path_join. cbn [app la list_ascii_of_string starts_with].
  destruct (Ascii.eqb "/" c && true); auto.
  destruct a as [|x a]; auto. destruct (Ascii.eqb (last (x :: a) " "%char) "/"); cbn; rewrite <- app_assoc; auto.
Qed.
Lemma path_stats : forall a b, path_join a (b ++ la ".stats") = path_join a b ++ la ".stats".
Proof.
  intros a b. destruct (path_ext a b ".stats") as [|Hb]; [auto|]. rewrite Hb.
  unfold path_join. cbn. destruct a as [|x a]; auto.
  destruct (Ascii.eqb _ "/"); rewrite <- app_assoc; auto.
Qed.
Lemma text_eqb_refl : forall t, text_eqb t t = true.
Proof. intros t. unfold text_eqb. destruct (list_eq_dec ascii_dec t t); congruence. Qed.

Lemma mapM_ints : forall l, mapM (fun w => value (read_int w)) (map show_int l) = Ok l.
Proof. induction l as [|z t IH]; auto. cbn [map mapM]. rewrite read_show_int. cbn [value rbind]. rewrite IH. auto. Qed.
Lemma mapM_nums : forall F (l : list (num F)), mapM (fun w => value (read w)) (map show l) = Ok l.
Proof. induction l as [|z t IH]; auto. cbn [map mapM]. rewrite read_show. cbn [value rbind]. rewrite IH. auto. Qed.
Lemma counts_back : forall v,
    match mapM (fun w => value (read_int w)) (count_words v) with
    | Ok [z] => CNum z | Ok l => CList l | Raise _ => CNan
    end = counts_read v.
Proof.
  intros [z|l|l|]; cbn [count_words].
  - cbn [mapM]. rewrite read_show_int. reflexivity.
  - rewrite mapM_ints. destruct l as [|x [|y t]]; auto.
  - rewrite mapM_ints. destruct l as [|x [|y t]]; auto.
  - reflexivity.
Qed.
Definition list_of {F} (v : averages F) : list (num F) := match v with ANum x => [x] | AList l | ATuple l => l end.
Lemma averages_words : forall F (v : averages F), average_words v = map show (list_of v).
Proof. intros F [x|l|l]; auto. Qed.
Lemma averages_back : forall F (v : averages F), one_or_list (list_of v) = averages_read v.
Proof. intros F [x|l|l]; cbn; auto. Qed.
Lemma index_paren : forall F (l : list (num F)) rest, index_of (la "(") (map show l ++ la "(" :: rest) = Some (length l).
Proof.
  intros F l rest. induction l as [|x t IH]; [reflexivity|]. cbn [map app index_of length].
  replace (text_eqb (show x) (la "(")) with false; [rewrite IH; auto|].
  symmetry. unfold text_eqb. destruct (list_eq_dec ascii_dec (show x) (la "(")) as [He|]; auto. exfalso.
  pose proof (show_chars F x "("%char) as H. rewrite He in H. specialize (H (or_introl eq_refl)). discriminate.
Qed.

Theorem C50_read : forall F (d : stats_in F) s o s',
    write_stats_file d s = Ok (o, s') ->
    process_polychord_stats (st_root o) (st_base o) s' = Ok (as_read o).
Proof.
  intros F d s o s' H. unfold write_stats_file in H.
  destruct (in_root d) as [root|]; [|discriminate]. destruct (in_base d) as [base|]; [|discriminate].
  destruct (in_extra d); [|discriminate]. cbn [assertb rbind] in H.
  match type of H with context [stats_lines ?x] => set (o' := x) in H end.
  assert (Hm : exists m e, st_means o' = Some m /\ st_errs o' = Some e) by (eexists; eexists; split; reflexivity).
  assert (Hr : st_root o' = root /\ st_base o' = base) by (split; reflexivity). destruct Hr as [Hr1 Hr2].
  clearbody o'.
  match type of H with context [flat_map ?f ?l] => remember (flat_map f l) as file eqn:Hf end.
  injection H as -> Hs. destruct Hm as (means & errs & Hm1 & Hm2).
  unfold process_polychord_stats. rewrite <- Hs, Hr1, Hr2, <- path_stats, text_eqb_refl.
  rewrite Hf, readlines_lines by (apply stats_lines_nl).
  set (C := map (fun '(i, (lz, le)) => cluster_line i lz le) (enumerate (combine (st_logZs o) (st_logZerrs o)))).
  set (P := map (fun '(i, (m, e)) => param_line i m e) (enumerate (combine means errs))).
  set (n := Nat.min (length (st_logZs o)) (length (st_logZerrs o))).
  assert (HCl : length C = n).
  { unfold C, enumerate. rewrite map_length, combine_length, seq_length, combine_length. unfold n. lia. }
  set (A := head_lines ++ [la "log(Z)       =  " ++ show (st_logZ o) ++ la " +/-   " ++ show (st_logZerr o);
               []; []; la "Local evidences:"; la "----------------"; []]).
  set (R := [[]; []; la "Run-time information:"; la "---------------------"; [];
   la " ncluster:          0 /       1";
   la " nposterior:        " ++ show_int (st_nposterior o);
   la " nequals:           " ++ show_int (st_nequals o);
   la " ndead:          " ++ show_int (st_ndead o);
   la " nlive:             " ++ show_int (st_nlive o);
   la " nlike:         " ++ show_counts (st_nlike o);
   la " <nlike>:       " ++ show_averages (st_avnlike o) ++ la "   (    " ++
     show_averages (st_avnlikeslice o) ++ la " per slice )";
   []; []; la "Dim No.       Mean        Sigma"]).
  assert (HL : map with_nl (stats_lines o) =
               map with_nl A ++ map with_nl C ++ map with_nl R ++ map with_nl P ++ [with_nl (la "-------------------------------")]).
  { unfold stats_lines. rewrite Hm1, Hm2. cbn [dflt]. fold C. fold P. rewrite app_assoc. fold A. fold R.
    rewrite !map_app. reflexivity. }
  rewrite HL.
  assert (HA : length (map with_nl A) = 14) by reflexivity.
  assert (HR : length (map with_nl R) = 15) by reflexivity.
  set (D := [with_nl (la "-------------------------------")]).
  assert (Hget : forall k, k < 15 -> get (map with_nl A ++ map with_nl C ++ map with_nl R ++ map with_nl P ++ D) (14 + k + n) =
                            get (map with_nl R) k).
  { intros k Hk. unfold get. rewrite nth_error_app2 by (rewrite HA; lia).
    rewrite nth_error_app2 by (rewrite HA, map_length, HCl; lia).
    rewrite HA, map_length, HCl. replace (14 + k + n - 14 - n) with k by lia.
    rewrite nth_error_app1; [auto|rewrite HR; auto]. }
  assert (H8 : get (map with_nl A ++ map with_nl C ++ map with_nl R ++ map with_nl P ++ D) 8 =
               Ok (with_nl (la "log(Z)       =  " ++ show (st_logZ o) ++ la " +/-   " ++ show (st_logZerr o)))) by reflexivity.
  rewrite H8. cbn [rbind]. unfold word at 1 2. rewrite logZ_line. cbn [get nth_error rbind value]. rewrite !read_show.
  cbn [rbind value].
  assert (Hskip : skipn 14 (map with_nl A ++ map with_nl C ++ map with_nl R ++ map with_nl P ++ D) =
                  map with_nl C ++ map with_nl R ++ map with_nl P ++ D) by reflexivity.
  rewrite Hskip. unfold C at 1. unfold enumerate at 1. rewrite read_clusters_ok by reflexivity.
  cbn [rbind].
  destruct (combine_fst_min _ _ (st_logZs o) (st_logZerrs o)) as [Hc1 Hc2]. fold n in Hc1, Hc2. rewrite Hc1, Hc2.
  assert (Hn : length (firstn n (st_logZs o)) = n) by (rewrite firstn_length; unfold n; lia). rewrite Hn.
  change (20 + n) with (14 + 6 + n). change (21 + n) with (14 + 7 + n). change (22 + n) with (14 + 8 + n).
  change (23 + n) with (14 + 9 + n). change (24 + n) with (14 + 10 + n). change (25 + n) with (14 + 11 + n).
  rewrite !Hget by lia. unfold R at 1 2 3 4 5 6. cbn [map get nth_error rbind]. unfold word.
  destruct (int_lines (st_nposterior o)) as (-> & _). destruct (int_lines (st_nequals o)) as (_ & -> & _).
  destruct (int_lines (st_ndead o)) as (_ & _ & -> & _). destruct (int_lines (st_nlive o)) as (_ & _ & _ & ->).
  rewrite nlike_line, avnlike_line. cbn [get nth_error rbind tl]. rewrite !read_show_int. cbn [value rbind].
  rewrite counts_back.
  rewrite !averages_words.
  assert (Hidx : index_of (la "(") (la "<nlike>:" :: map show (list_of (st_avnlike o)) ++ la "(" ::
     map show (list_of (st_avnlikeslice o)) ++ [la "per"; la "slice"; la ")"]) = Some (S (length (list_of (st_avnlike o))))).
  { cbn [index_of]. rewrite index_paren. reflexivity. }
  rewrite Hidx. cbn [value rbind].
  replace (S (length (list_of (st_avnlike o))) - 1) with (length (list_of (st_avnlike o))) by lia.
  cbn [skipn]. rewrite firstn_app, map_length, Nat.sub_diag, firstn_O, app_nil_r.
  rewrite firstn_all2 by (rewrite map_length; lia). rewrite mapM_nums. cbn [rbind].
  match goal with |- context [firstn ?k (skipn ?j ?w)] =>
    replace (firstn k (skipn j w)) with (map (@show F) (list_of (st_avnlikeslice o))) end.
  2: { replace (S (length (list_of (st_avnlike o))) + 1) with (S (S (length (list_of (st_avnlike o))))) by lia.
       match goal with |- context [skipn (S ?k) (_ :: ?w)] =>
         match goal with |- context [skipn (S k) (?x :: w)] => change (skipn (S k) (x :: w)) with (skipn k w) end end.
       rewrite skipn_app, map_length.
       rewrite skipn_all2 by (rewrite map_length; lia).
       replace (S (length (list_of (st_avnlike o))) - length (list_of (st_avnlike o))) with 1 by lia. cbn [skipn app length].
       rewrite app_length. cbn [length]. rewrite app_length, !map_length. cbn [length].
       replace (S (length (list_of (st_avnlike o)) + S (length (list_of (st_avnlikeslice o)) + 3)) - 3 - S (S (length (list_of (st_avnlike o)))))
         with (length (list_of (st_avnlikeslice o))) by lia.
       rewrite firstn_app, map_length, Nat.sub_diag, firstn_O, app_nil_r.
       rewrite firstn_all2 by (rewrite map_length; lia). auto. }
  rewrite mapM_nums. cbn [rbind]. rewrite !averages_back.
  assert (Hlen : 29 + n <? length (map with_nl A ++ map with_nl C ++ map with_nl R ++ map with_nl P ++ D) = true).
  { apply Nat.ltb_lt. rewrite !app_length, HA, HR, (map_length with_nl C), HCl. unfold D. cbn [length]. lia. }
  rewrite Hlen.
  assert (Hsk : skipn (29 + n) (map with_nl A ++ map with_nl C ++ map with_nl R ++ map with_nl P ++ D) = map with_nl P ++ D).
  { rewrite !app_assoc. rewrite <- app_assoc. rewrite skipn_app.
    assert (Hl : length ((map with_nl A ++ map with_nl C) ++ map with_nl R) = 29 + n).
    { rewrite !app_length, HA, HR, map_length, HCl. lia. }
    rewrite skipn_all2, Hl, Nat.sub_diag by lia. auto. }
  rewrite Hsk. unfold P, D, enumerate. rewrite read_params_ok. cbn [rbind fst snd].
  destruct (combine_fst_min _ _ means errs) as [-> ->].
  unfold as_read. rewrite Hm1, Hm2, Hr1, Hr2. reflexivity.
Qed.
Print Assumptions C50_read.

(** Writing is refused exactly when a mandatory key is missing or an unknown
    key is present; it touches only the one file; every key given is kept. *)
Definition keeps {A} (given : option A) (out : A) : Prop := forall x, given = Some x -> out = x.
Theorem C50_written : forall F (d : stats_in F) s,
    (forall root base, in_root d = Some root -> in_base d = Some base -> in_extra d = [] ->
       exists o s', write_stats_file d s = Ok (o, s') /\
         st_root o = root /\ st_base o = base /\
         keeps (in_logZ d) (st_logZ o) /\ keeps (in_logZerr d) (st_logZerr o) /\
         keeps (in_logZs d) (st_logZs o) /\ keeps (in_logZerrs d) (st_logZerrs o) /\
         keeps (in_ncluster d) (st_ncluster o) /\ keeps (in_nposterior d) (st_nposterior o) /\
         keeps (in_nequals d) (st_nequals o) /\ keeps (in_ndead d) (st_ndead o) /\ keeps (in_nlive d) (st_nlive o) /\
         keeps (in_nlike d) (st_nlike o) /\ keeps (in_avnlike d) (st_avnlike o) /\
         keeps (in_avnlikeslice d) (st_avnlikeslice o) /\
         (forall m, in_means d = Some m -> st_means o = Some m) /\ (forall e, in_errs d = Some e -> st_errs o = Some e) /\
         s' (path_join base (root ++ la ".stats")) <> None /\
         forall q, q <> path_join base (root ++ la ".stats") -> s' q = s q) /\
    (in_root d = None \/ in_base d = None \/ in_extra d <> [] -> write_stats_file d s = Raise AssertionError).
Proof.
  intros F d s. split.
  - intros root base H1 H2 H3. unfold write_stats_file. rewrite H1, H2, H3. cbn [assertb rbind].
    match goal with |- context [stats_lines ?x] => set (o := x) end.
    match goal with |- context [flat_map ?f ?l] => set (file := flat_map f l) end.
    exists o. eexists. split; [reflexivity|]. split; [reflexivity|]. split; [reflexivity|].
    repeat (split; [intros v Hv; cbn; rewrite Hv; reflexivity|]).
    split; [rewrite text_eqb_refl; discriminate|].
    intros q Hq. unfold text_eqb. destruct (list_eq_dec ascii_dec q _); congruence.
  - intros H. unfold write_stats_file.
    destruct (in_root d); [|reflexivity]. destruct (in_base d); [|reflexivity].
    destruct (in_extra d); [|reflexivity]. destruct H as [H|[H|H]]; congruence.
Qed.
Print Assumptions C50_written.

(** Reading returns just what write_stats_file returned when, and only when,
    the numbers of entries agree and no list of one number and no tuple was
    given for the numbers of likelihood calls. *)
Definition plain_counts (v : counts) : Prop :=
  match v with CNum _ | CNan => True | CList l => length l <> 1 | CTuple _ => False end.
Definition plain_averages {F} (v : averages F) : Prop :=
  match v with ANum _ => True | AList l => length l <> 1 | ATuple _ => False end.
Definition entries {A} (o : option (list A)) : nat := match o with Some l => length l | None => 0 end.

Lemma counts_read_id : forall v, counts_read v = v <-> plain_counts v.
Proof.
  intros [z|[|x [|y l]]|[|x [|y l]]|]; cbn; split; intros H; try discriminate; try contradiction; auto; lia.
Qed.
Lemma averages_read_id : forall F (v : averages F), averages_read v = v <-> plain_averages v.
Proof.
  intros F [z|[|x [|y l]]|[|x [|y l]]]; cbn; split; intros H; try discriminate; try contradiction; auto; lia.
Qed.
Lemma firstn_id : forall A n (l : list A), firstn n l = l <-> length l <= n.
Proof.
  intros A n l. split.
  - intros H. apply (f_equal (@length A)) in H. rewrite firstn_length in H. lia.
  - apply firstn_all2.
Qed.

Theorem C50_round_trip : forall F (d : stats_in F) s o s',
    write_stats_file d s = Ok (o, s') ->
    (process_polychord_stats (st_root o) (st_base o) s' = Ok o <->
     length (st_logZs o) = length (st_logZerrs o) /\ st_ncluster o = Z.of_nat (length (st_logZs o)) /\
     entries (st_means o) = entries (st_errs o) /\
     plain_counts (st_nlike o) /\ plain_averages (st_avnlike o) /\ plain_averages (st_avnlikeslice o)).
Proof.
  intros F d s o s' H. rewrite (C50_read _ _ _ _ _ H).
  assert (Hm : exists m e, st_means o = Some m /\ st_errs o = Some e).
  { unfold write_stats_file in H. destruct (in_root d); [|discriminate]. destruct (in_base d); [|discriminate].
    destruct (in_extra d); [|discriminate]. cbn [assertb rbind] in H.
    match type of H with context [flat_map ?f ?l] => generalize dependent (flat_map f l) end.
    intros file H. injection H as <- _. eexists. eexists. split; reflexivity. }
  destruct Hm as (m & e & Hm & He).
  rewrite <- counts_read_id, <- !averages_read_id.
  destruct o as [root base z ze zs zes nc np ne nd nl nk av avs means errs].
  cbn in Hm, He. subst means errs. unfold as_read. cbn.
  set (n := Nat.min (length zs) (length zes)). set (k := Nat.min (length m) (length e)).
  split.
  - intros Hq. injection Hq as H1 H2 H3 H4 H5 H6 H7 H8. apply firstn_id in H1, H2, H7, H8.
    repeat (split; [solve [auto|lia]|]). auto.
  - intros (H1 & H2 & H3 & H4 & H5 & H6). rewrite H4, H5, H6.
    assert (n = length zs) by lia. assert (k = length m) by lia.
    rewrite !firstn_all2 by lia. rewrite H2. repeat f_equal; lia.
Qed.
Print Assumptions C50_round_trip.

(** ** A printer and a case *)
Lemma int_no_dashes : forall z, no_dashes (show_int z).
Proof.
  intros z. destruct (Z.leb_spec 0 z) as [Hz|Hz].
  - apply no_dashes_none. intros Hi. apply (str_int_digits z Hz) in Hi. discriminate.
  - destruct z as [|p|p]; [lia|lia|].
    destruct (str_int_digits (Z.pos p)) as [H1 H2]; [lia|].
    change (show_int (Z.neg p)) with ("-"%char :: show_int (Z.pos p)).
    assert (Hn : ~ In "-"%char (show_int (Z.pos p))) by (intros Hi; apply H1 in Hi; discriminate).
    split; [|apply no_dashes_none; auto].
    destruct (show_int (Z.pos p)) as [|d u]; auto. intros [_ ->]. apply Hn. left; auto.
Qed.
Definition int_floats : floats := mkFloats Z 0%Z show_int read_int read_show_int int_chars int_ne int_no_dashes.
Definition no_files : store := fun _ => None.
Definition an_input : stats_in int_floats :=
  @mkIn int_floats (Some (la "run")) (Some (la "chains/")) (Some (-12)%Z) (Some 3%Z)
    (Some [(-12)%Z; (-13)%Z]) (Some [1%Z; 2%Z]) (Some 2%Z) (Some 40%Z) (Some 7%Z) (Some 100%Z) (Some 25%Z)
    (Some (CList [500%Z; 600%Z])) (Some (@ANum int_floats 5%Z)) (Some (@AList int_floats [1%Z; 2%Z]))
    (Some [4%Z; -5%Z]) (Some [1%Z; 1%Z]) [].
Example C50_case : exists o s', write_stats_file an_input no_files = Ok (o, s') /\
    process_polychord_stats (la "run") (la "chains/") s' = Ok o /\ st_logZs o = [(-12)%Z; (-13)%Z] /\
    st_means o = Some [4%Z; -5%Z] /\ st_nlike o = CList [500%Z; 600%Z].
Proof. eexists. eexists. split; [reflexivity|]. split; [vm_compute; reflexivity|]. repeat split. Qed.
Example C50_missing : write_stats_file (@mkIn int_floats (Some (la "run")) None None None None None None None None None None
    None None None None None []) no_files = Raise AssertionError.
Proof. reflexivity. Qed.

(** The docstring calls the returned dict the expected output of
    process_polychord_stats.  It is not when a list of one number is given, when
    the number of clusters does not fit, or when lists differ in length. *)
Definition other_input (k : Z) (nl : counts) (zs errs : list Z) : stats_in int_floats :=
  @mkIn int_floats (Some (la "run")) (Some (la "chains")) None None (Some zs) None (Some k) None None None None
    (Some nl) None None None (Some errs) [].
Theorem C50_refuted :
  (exists o s', write_stats_file (other_input 1 (CList [5%Z]) [0%Z] [0%Z; 0%Z; 0%Z]) no_files = Ok (o, s') /\
     process_polychord_stats (la "run") (la "chains") s' <> Ok o) /\
  (exists o s', write_stats_file (other_input 4 (CNum 5%Z) [0%Z] [0%Z; 0%Z; 0%Z]) no_files = Ok (o, s') /\
     process_polychord_stats (la "run") (la "chains") s' <> Ok o) /\
  (exists o s', write_stats_file (other_input 2 (CNum 5%Z) [0%Z; 1%Z] [0%Z; 0%Z; 0%Z]) no_files = Ok (o, s') /\
     process_polychord_stats (la "run") (la "chains") s' <> Ok o) /\
  (exists o s', write_stats_file (other_input 1 (CNum 5%Z) [0%Z] [0%Z; 0%Z]) no_files = Ok (o, s') /\
     process_polychord_stats (la "run") (la "chains") s' <> Ok o).
Proof.
  repeat match goal with |- _ /\ _ => split end;
    (eexists; eexists; split; [reflexivity|vm_compute; discriminate]).
Qed.
Print Assumptions C50_refuted.
