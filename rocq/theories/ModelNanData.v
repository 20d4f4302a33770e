(** process_samples_array on samples whose numbers may be nan or infinite
    (data_processing.py:448-621).  ModelData.v takes finite numbers; the
    functions which see only indexes, such as threads_given_birth_inds, are used
    from there. *)
From Verif Require Import Base ModelRun ModelData ModelNan.

(** A row of the samples array: param_1, ..., logl, birth_logl. *)
Record nsamp := mkNSamp { ns_theta : list num; ns_logl : num; ns_birth : num }.
Definition nsamp0 : nsamp := mkNSamp [] Nan Nan.

(** The run which is returned. *)
Record prun := mkPRun {
  p_logl : list num; p_theta : list (list num); p_nlive : list Z;
  p_labels : list Z; p_tmm : list (num * num)
}.

(** data_processing.py:469 [samples[np.argsort(samples[:, -2])]] *)
Definition nsort_samps (S : sorter) (l : list nsamp) : list nsamp :=
  take nsamp0 l (nsort S (map ns_logl l)).

(** data_processing.py:578-595: the death indexes drawn for the births on a tied
    contour; [!=] is true of nan. *)
Definition ndraw_deaths {E} (births : list num) (bl : num) (dup_deaths : list nat) : W E (list Z) :=
  let dd := map Z.of_nat dup_deaths in
  if forallb (fun x => negb (num_eqb bl x)) (take Nan births dup_deaths)
  then shuffle dd
  else sample_less_than_condition dd (map Z.of_nat (where_ (num_eqb bl) births)).

(** data_processing.py:563-618: one iteration of the loop, for point [i]. *)
Definition nbirth_step {E} (births logls : list num) (bi : list (option Z)) (i : nat)
  : W E (list (option Z)) :=
  match nth i bi None with
  | Some _ => wret bi
  | None =>
      let bl := nth i births Nan in
      let dup_deaths := where_ (num_eqb bl) logls in
      match dup_deaths with
      | [d] => wret (upd i (Some (Z.of_nat d)) bi)
      | _ =>
          let dup_births := where_ (num_eqb bl) births in
          let* _ := wassert (1 <? length dup_deaths)%nat in
          let* to_use := ndraw_deaths births bl dup_deaths in
          let* to_use := fill_deaths (length dup_births) to_use in
          wret (assign_at dup_births (map Some (firstn (length dup_births) to_use)) bi)
      end
  end.

(** data_processing.py:558-619 *)
Definition nbirth_loop {E} (births logls : list num) : W E (list Z) :=
  match births with
  | [] => wraise IndexError
  | init :: _ =>
      let* _ := wassert (forallb (fun '(x, y) => num_leb x y) (combine births logls)) in
      let bi := map (fun x => if num_eqb x init then Some (-1) else None) births in
      let* bi := wfoldM (nbirth_step births logls) (seq 0 (length births)) bi in
      let* _ := wassert (forallb is_some bi) in
      wret (somes bi)
  end.

(** data_processing.py:511-621 birth_inds_given_contours *)
Definition nbirth_inds {E} (S : sorter) (births logls : list num) (dup_assert dup_warn : bool)
  : W E (list Z) :=
  let* _ := ncheck_logls S logls dup_assert dup_warn in
  let* state := get_state in
  let* _ := seed 0 in
  let* bi := nbirth_loop births logls in
  let* _ := set_state state in
  wret bi.

(** data_processing.py:491-505: one iteration of the loop over labels. *)
Definition nthread_step (lg : list num) (bi labs : list Z) (st : list (num * num) * list Z)
           (label : Z) : res (list (num * num) * list Z) :=
  let '(tmm, delta) := st in
  let inds := where_ (Z.eqb label) labs in
  let lst := last inds 0%nat in
  let fst_ := hd 0%nat inds in
  let sb := nth fst_ bi 0 in
  let delta := add_at (lst + 1) (-1) delta in
  if sb =? nth 0 bi 0
  then Ok (tmm ++ [(NegInf, nth lst lg Nan)], add_at 0 1 delta)
  else
    let! _ := assertb (0 <=? sb) in
    Ok (tmm ++ [(nth (Z.to_nat sb) lg Nan, nth lst lg Nan)], add_at (Z.to_nat sb + 1) 1 delta).

(** data_processing.py:448-508 process_samples_array *)
Definition nprocess {E} (S : sorter) (samples : list nsamp) (dup_assert dup_warn : bool) : W E prun :=
  let samples := nsort_samps S samples in
  let lg := map ns_logl samples in
  let* bi := nbirth_inds S (map ns_birth samples) lg dup_assert dup_warn in
  let* labs := threads_given_birth_inds bi in
  let uniq := unique labs in
  let* _ := wassert (list_eqb uniq (zrange (length uniq))) in
  let* st := wlift (foldM (nthread_step lg bi labs) uniq ([], repeat 0 (length samples + 1)%nat)) in
  let '(tmm, delta) := st in
  wret (mkPRun lg (map ns_theta samples) (but_last (cumsum delta)) labs tmm).
