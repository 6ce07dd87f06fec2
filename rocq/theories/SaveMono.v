(* SaveMono.v -- proofs of C46 for the nonparametric models. *)
From Coq Require Import String ZArith Lia Lra.
From Verif Require Import MonoInv MonoHist MonoRhs MonoEq MonoFinal MonoLists.
From Verif Require Export SaveSolver.
#[local] Open Scope string_scope.
#[local] Open Scope nat_scope.
#[local] Open Scope list_scope.

(* ---- making the model again ------------------------------------------------------------------------------------------------------ *)
Lemma state_dim_again d : MonoInv.sinv d -> exists r, state_dim (m_ops d) = Ok r /\ (r = None -> entries_of (m_ops d) = []) /\ (r <> None -> r = m_r d).
Proof.
  intros H. unfold state_dim. destruct (entries_of (m_ops d)) as [|e t] eqn:E.
  - exists None. repeat split; auto. congruence.
  - exists (m_r d). assert (R : m_r d = Some (op_rows e)) by (apply (si_r d H); rewrite E; left; auto).
    rewrite (one_of_all _ (op_rows e)).
    + cbn [map]. rewrite R. repeat split; auto. discriminate.
    + intros x Hx. apply in_map_iff in Hx. destruct Hx as [e' [<- He]]. rewrite <- E in He. pose proof (si_r d H e' He). congruence.
Qed.
Lemma input_dim_again d : MonoInv.sinv d -> exists m, input_dim (m_ops d) = Ok m /\ (m = None -> m_hasin d = true /\ entries_of (filter takes_input (m_ops d)) = []) /\ (m <> None -> m = m_m d).
Proof.
  intros H. unfold input_dim. destruct (filter takes_input (m_ops d)) as [|o l] eqn:F.
  - exists (Some 0). repeat split; try discriminate. intros _. symmetry. apply (si_noin d H). rewrite (si_hasin d H).
    apply not_true_is_false. intros X. apply existsb_exists in X. destruct X as [o [H1 H2]]. assert (K : In o (filter takes_input (m_ops d))) by (apply filter_In; auto). rewrite F in K. destruct K.
  - assert (HI : m_hasin d = true).
    { rewrite (si_hasin d H). apply existsb_exists. exists o. apply filter_In. rewrite F. left; auto. }
    rewrite <- F. destruct (entries_of (filter takes_input (m_ops d))) as [|e t] eqn:E.
    + exists None. repeat split; auto. congruence.
    + exists (m_m d). assert (K : forall e', In e' (e :: t) -> m_m d = Some (op_inputs e')).
      { intros e' He. rewrite <- E in He. apply in_entries_of in He. destruct He as [o' [Ho Ee]]. apply filter_In in Ho. destruct Ho as [H1 H2]. exact (si_m d H o' e' H1 H2 Ee). }
      rewrite (one_of_all _ (op_inputs e)).
      * cbn [map]. rewrite (K e (or_introl eq_refl)). repeat split; auto; discriminate.
      * intros x Hx. apply in_map_iff in Hx. destruct Hx as [e' [<- He]]. pose proof (K e' He). pose proof (K e (or_introl eq_refl)). congruence.
Qed.
Lemma no_duplicates d : MonoInv.sinv d -> duplicates (map mo_cls (filter uncal (m_ops d))) = false.
Proof.
  intros H. apply duplicates_nodup.
  assert (K : forall i j o o', nth_error (m_ops d) i = Some o -> nth_error (m_ops d) j = Some o' -> uncal o = true -> uncal o' = true -> mo_cls o = mo_cls o' -> i = j).
  { intros i j o o' Hi Hj Ui Uj C.
    assert (L : forall i o, nth_error (m_ops d) i = Some o -> uncal o = true -> In i (m_infer d)).
    { intros i0 o0 E U. destruct (proj2 (sinv_in d i0 H)) as [|K]; [apply nth_error_Some; congruence|auto|]. destruct (si_known d H i0 K) as [o1 [e [E1 E2]]].
      rewrite E in E1. inversion E1; subst. unfold uncal in U. rewrite E2 in U. discriminate. }
    exact (si_dup d H i j o o' (L i o Hi Ui) (L j o' Hj Uj) Hi Hj C). }
  revert K. generalize (m_ops d). induction l as [|o l IH]; intros K; cbn; [constructor|].
  assert (IH' : NoDup (map mo_cls (filter uncal l))).
  { apply IH. intros i j a b Hi Hj. intros U1 U2 C. pose proof (K (S i) (S j) a b Hi Hj U1 U2 C). lia. }
  destruct (uncal o) eqn:U; [|auto]. cbn. constructor; [|auto]. intros I. apply in_map_iff in I. destruct I as [b [C B]]. apply filter_In in B. destruct B as [B1 B2].
  apply In_nth_error in B1. destruct B1 as [j Hj]. pose proof (K 0 (S j) o b eq_refl Hj U B2 (eq_sym C)). lia.
Qed.
Definition loaded (d : model) : model :=
  let itr := length (indices uncal (m_ops d)) =? 0 in
  {| m_kind := m_kind d; m_frozen := m_frozen d; m_ops := m_ops d; m_infer := m_infer d; m_known := m_known d; m_hasin := m_hasin d; m_r := m_r d; m_m := m_m d;
     m_intrusive := itr; m_solver := if m_frozen d then None else if itr then None else Some new_plain |}.
Lemma mk_again d : MonoInv.sinv d -> exists r m, state_dim (m_ops d) = Ok r /\ input_dim (m_ops d) = Ok m /\
  mk_model (m_kind d) (m_frozen d) (map AOp (m_ops d)) SNone =
  Ok {| m_kind := m_kind d; m_frozen := m_frozen d; m_ops := m_ops d; m_infer := indices uncal (m_ops d); m_known := indices (fun o => negb (uncal o)) (m_ops d);
        m_hasin := m_hasin d; m_r := r; m_m := m; m_intrusive := length (indices uncal (m_ops d)) =? 0;
        m_solver := if m_frozen d then None else if length (indices uncal (m_ops d)) =? 0 then None else Some new_plain |}.
Proof.
  intros H. destruct (state_dim_again d H) as [r [Er _]]. destruct (input_dim_again d H) as [m [Em _]]. exists r, m. split; [auto|]. split; [auto|].
  unfold mk_model, set_operators. destruct (map AOp (m_ops d)) as [|a t] eqn:E; [destruct (m_ops d) eqn:E2; [elim (si_ne d H); auto|discriminate]|]. rewrite <- E.
  rewrite resolve_AOp, (no_duplicates d H), Er, Em. cbn [seqm]. unfold set_solver. cbn [m_frozen m_intrusive blank m_kind m_solver]. rewrite <- (si_hasin d H).
  destruct (m_frozen d); [reflexivity|]. destruct (length (indices uncal (m_ops d)) =? 0) eqn:Q; cbn; rewrite ?Q; reflexivity.
Qed.

(* ---- what is written -------------------------------------------------------------------------------------------------------------- *)
Definition mfront (d : model) : list (str * node) :=
  [("meta", Dset [("num_operators", AvI (Z.of_nat (length (m_ops d)))); ("r", AvI (dim_of (m_r d))); ("m", AvI (dim_of (m_m d)))] (DV []));
   ("indices_infer", Dset [] (indices_dset (m_infer d))); ("indices_known", Dset [] (indices_dset (m_known d)))].
Definition mpre (d : model) : list wev :=
  [empty "meta"; EAttr "meta" "num_operators" (AvI (Z.of_nat (length (m_ops d)))); EAttr "meta" "r" (AvI (dim_of (m_r d)));
   EAttr "meta" "m" (AvI (dim_of (m_m d))); EData "indices_infer" (Some (indices_dset (m_infer d)));
   EData "indices_known" (Some (indices_dset (m_known d)))].
Lemma mpre_writes d : wexecs (mpre d) None ([], []) = (([], mfront d), Done, None). Proof. reflexivity. Qed.
Lemma group_ok p : injective (fun i => String.append p (dec i)). Proof. apply name_dec. Qed.
Lemma group_out nm evs g g' k' : wexecs [EGroup nm evs] None g = (g', Done, k') -> exists n, g' = (fst g, snd g ++ [(nm, n)]).
Proof.
  cbn [wexecs]. rewrite wexec_group. destruct (assoc nm (snd g)); [discriminate|]. cbn [option_map]. destruct (wexecs evs None ([], [])) as [[sub s] k2]. destruct s; try discriminate.
  intros E; inversion E; subst. eauto.
Qed.
Lemma front_operator d i : assoc (op_group i) (mfront d) = None. Proof. reflexivity. Qed.
Lemma ops_written d : (forall o, In o (m_ops d) -> SpecMono.valid_op o) -> exists gs, Forall2 (fun o g => op_load_any g = Ok o) (m_ops d) gs /\
  wexecs (egroups op_group op_events 0 (m_ops d)) None ([], mfront d) = (([], mfront d ++ number op_group 0 gs), Done, None).
Proof.
  intros V. apply egroups_all; [apply (name_dec "operator_")| |apply front_operator].
  intros o Ho. destruct (op_written o (V o Ho)) as [g [W [_ L]]]. eauto.
Qed.
Lemma model_written d g : MonoInv.sinv d -> writes (model_events d) g -> exists gs rest, Forall2 (fun o g => op_load_any g = Ok o) (m_ops d) gs /\
  g = Grp [] (mfront d ++ number op_group 0 gs ++ rest).
Proof.
  intros H [a [l [-> E]]]. destruct (ops_written d (si_valid d H)) as [gs [HF W]]. exists gs.
  unfold model_events in E. fold (mpre d) in E. rewrite wexecs_app in E. rewrite mpre_writes in E. rewrite wexecs_app, W in E.
  destruct (m_solver d) as [s|]; cbn [when] in E.
  - apply group_out in E. destruct E as [n E]. cbn [fst snd] in E. exists [("solver", n)]. split; [auto|]. injection E; intros -> ->. reflexivity.
  - cbn [wexecs] in E. exists []. split; [auto|]. injection E; intros <- <-. now rewrite app_nil_r.
Qed.
Lemma map_Z l : map Z.to_nat (map Z.of_nat l) = l. Proof. rewrite map_map. rewrite <- (map_id l) at 2. apply map_ext. apply Nat2Z.id. Qed.
Lemma repeat_map {A B} (x : B) (l : list A) : repeat x (length l) = map (fun _ => x) l. Proof. induction l; cbn; congruence. Qed.
Lemma model_read d gs rest : MonoInv.sinv d -> positive_dims d -> Forall2 (fun o g => op_load_any g = Ok o) (m_ops d) gs ->
  model_load (m_kind d) (m_frozen d) (Grp [] (mfront d ++ number op_group 0 gs ++ rest)) = Ok (loaded d).
Proof.
  intros H [P1 P2] HF. unfold model_load. set (g := Grp _ _).
  replace (meta_attr "num_operators" g) with (Ok (AvI (Z.of_nat (length (m_ops d))))) by reflexivity. cbn [bind as_int].
  unfold indices_at. replace (dset "indices_infer" g) with (Ok (indices_dset (m_infer d))) by reflexivity. replace (dset "indices_known" g) with (Ok (indices_dset (m_known d))) by reflexivity.
  unfold indices_dset. cbn [bind as_ints]. rewrite !map_Z, Nat2Z.id, repeat_map.
  rewrite (lgroups_all op_group g (m_ops d) (fun _ => op_load_any) (fun o => o) gs (mfront d) rest); [|apply (name_dec "operator_")|reflexivity|apply front_operator|exact HF].
  rewrite map_id. cbn [bind]. destruct (mk_again d H) as [r [m [Er [Em ->]]]]. cbn [bind].
  destruct (state_dim_again d H) as [r' [Er' [R1 R2]]]. rewrite Er in Er'. inversion Er'; subst r'.
  destruct (input_dim_again d H) as [m' [Em' [M1 M2]]]. rewrite Em in Em'. inversion Em'; subst m'.
  replace (meta_attr "r" g) with (Ok (AvI (dim_of (m_r d)))) by reflexivity. replace (meta_attr "m" g) with (Ok (AvI (dim_of (m_m d)))) by reflexivity. cbn [bind as_int].
  unfold with_indices. cbn [m_kind m_frozen m_ops m_infer m_known m_hasin m_r m_m m_intrusive m_solver].
  assert (S1 : (if (dim_of (m_r d) =? 0)%Z then Ok (with_indices (m_infer d) (m_known d) {| m_kind := m_kind d; m_frozen := m_frozen d; m_ops := m_ops d; m_infer := m_infer d; m_known := m_known d;
        m_hasin := m_hasin d; m_r := r; m_m := m; m_intrusive := length (indices uncal (m_ops d)) =? 0;
        m_solver := if m_frozen d then None else if length (indices uncal (m_ops d)) =? 0 then None else Some new_plain |})
      else done (set_state_dimension (Z.to_nat (dim_of (m_r d))) (with_indices (m_infer d) (m_known d) {| m_kind := m_kind d; m_frozen := m_frozen d; m_ops := m_ops d; m_infer := m_infer d; m_known := m_known d;
        m_hasin := m_hasin d; m_r := r; m_m := m; m_intrusive := length (indices uncal (m_ops d)) =? 0;
        m_solver := if m_frozen d then None else if length (indices uncal (m_ops d)) =? 0 then None else Some new_plain |}))) = Ok (with_m m (loaded d))).
  { unfold loaded, with_m. cbn [m_kind m_frozen m_ops m_infer m_known m_hasin m_r m_m m_intrusive m_solver].
    destruct (m_r d) as [n|] eqn:RD; cbn [dim_of].
    - destruct (Z.of_nat n =? 0)%Z eqn:Q; [apply Z.eqb_eq in Q; assert (n = 0) by lia; congruence|]. rewrite Nat2Z.id. unfold set_state_dimension. cbn [m_ops with_indices].
      replace (forallb _ _) with true.
      + cbn. rewrite <- RD. reflexivity.
      + symmetry. apply forallb_forall. intros e He. pose proof (si_r d H e He). apply Nat.eqb_eq. congruence.
    - cbn. destruct r as [x|]; [assert (Some x = None) by (apply R2; discriminate); discriminate|]. reflexivity. }
  unfold with_indices in S1. cbn [m_kind m_frozen m_ops m_infer m_known m_hasin m_r m_m m_intrusive m_solver] in S1. rewrite S1. cbn [bind]. clear S1.
  cbn [with_m m_hasin loaded]. destruct (m_hasin d) eqn:HI; cbn [negb].
  - rewrite orb_false_r. destruct (m_m d) as [n|] eqn:MD; cbn [dim_of].
    + destruct (Z.of_nat n =? 0)%Z eqn:Q; [apply Z.eqb_eq in Q; assert (n = 0) by lia; subst; elim (P2 eq_refl); auto|]. rewrite Nat2Z.id. unfold set_input_dimension.
      cbn [with_m m_hasin loaded m_ops]. rewrite HI. cbn [negb andb]. replace (forallb _ _) with true.
      * cbn. unfold with_m, loaded. cbn. rewrite HI, MD. reflexivity.
      * symmetry. apply forallb_forall. intros e He. apply in_entries_of in He. destruct He as [o [Ho Ee]]. apply filter_In in Ho. destruct Ho as [H1 H2].
        pose proof (si_m d H o e H1 H2 Ee). apply Nat.eqb_eq. congruence.
    + cbn. destruct m as [x|]; [assert (Some x = None) by (apply M2; discriminate); discriminate|]. unfold with_m, loaded. cbn. rewrite HI, MD. reflexivity.
  - rewrite orb_true_r. assert (m = m_m d). { apply M2. intros ->. destruct (M1 eq_refl). congruence. }
    subst m. unfold with_m, loaded. cbn. rewrite HI. reflexivity.
Qed.
Lemma model_loads I d : MonoInv.sinv d -> positive_dims d -> loads_as I (SvModel d) (model_load (m_kind d) (m_frozen d)) (loaded d).
Proof. intros H P. apply loads_as_w. intros g W. destruct (model_written d g H W) as [gs [rest [HF ->]]]. now apply model_read. Qed.
Lemma saves_writes I x : saves I x -> exists g, writes (events_of I x) g.
Proof.
  intros H. destruct (H (fun _ => None) "" eq_refl) as [f' E]. unfold save in E. apply save_done in E. destruct E as [a [l [E _]]]. exists (Grp a l), a, l. auto.
Qed.
Lemma model_saves I d : MonoInv.sinv d -> (forall s, m_solver d = Some s -> saves I (SvSolver s)) -> saves I (SvModel d).
Proof.
  intros H HS. destruct (ops_written d (si_valid d H)) as [gs [HF W]].
  assert (K : exists a l, wexecs (model_events d) None ([], []) = ((a, l), Done, None)).
  { unfold model_events. fold (mpre d). rewrite wexecs_app, mpre_writes, wexecs_app, W. destruct (m_solver d) as [s|]; cbn [when]; [|do 2 eexists; reflexivity].
    destruct (saves_writes I _ (HS s eq_refl)) as [g Wg]. do 2 eexists. apply (group_writes "solver" _ g); [|exact Wg].
    rewrite assoc_app. replace (assoc "solver" (mfront d)) with (@None node) by reflexivity. apply number_other. intros i. discriminate. }
  destruct K as [a [l K]]. eapply saves_from. exact K.
Qed.
Lemma alike d : evaluates_alike d (loaded d).
Proof. unfold evaluates_alike. repeat split; try reflexivity. Qed.
Lemma model_back I X d : lsx_ok X -> reach X d -> positive_dims d -> exists d', loads_as I (SvModel d) (model_load (m_kind d) (m_frozen d)) d' /\
  same_model d d' /\ model_eqb d' d = true /\ evaluates_alike d d'.
Proof.
  intros HX HR P. pose proof (mi_s X d (reach_minv X d HX HR)) as H. exists (loaded d). split; [now apply model_loads|]. split; [unfold same_model; cbn; repeat split; auto|].
  split; [|apply alike]. apply model_eq_iff. cbn. repeat split; auto.
Qed.
Lemma model_saved I X d : lsx_ok X -> reach X d -> (forall s, m_solver d = Some s -> saves I (SvSolver s)) -> saves I (SvModel d).
Proof. intros HX HR. apply model_saves. exact (mi_s X d (reach_minv X d HX HR)). Qed.
(* an untrained model with something to learn learns after loading just as a new one *)
Lemma loaded_solver d : m_frozen d = false -> m_solver (loaded d) = if length (indices uncal (m_ops d)) =? 0 then None else Some new_plain.
Proof. intros H. cbn. now rewrite H. Qed.

(* ---- what does not come back ---------------------------------------------------------------------------------------------------------- *)
(* a trained model: its solver is gone, fit() and refit() return and do nothing *)
Lemma trained_uncal d : check_trained d = Ok tt -> indices uncal (m_ops d) = [].
Proof.
  unfold check_trained. destruct (m_r d); [|discriminate]. destruct (m_hasin d && _); [discriminate|]. destruct (existsb uncal (m_ops d)) eqn:E; [discriminate|]. intros _.
  unfold indices. induction (seq 0 (length (m_ops d))) as [|i l IH]; [auto|]. cbn. destruct (nth_error (m_ops d) i) as [o|] eqn:Q; [|auto]. destruct (uncal o) eqn:U; [|auto].
  exfalso. assert (existsb uncal (m_ops d) = true); [|congruence]. apply existsb_exists. exists o. split; [eapply nth_error_In; eauto|auto].
Qed.
Lemma trained_back I X d : lsx_ok X -> reach X d -> positive_dims d -> check_trained d = Ok tt -> m_frozen d = false ->
  exists d', loads_as I (SvModel d) (model_load (m_kind d) (m_frozen d)) d' /\ m_solver d' = None /\
  (forall states lhs inputs, MonoModel.fit X d' states lhs inputs = (d', Ok tt)) /\ MonoModel.refit X d' = (d', Ok tt).
Proof.
  intros HX HR P T F. pose proof (mi_s X d (reach_minv X d HX HR)) as H. exists (loaded d). split; [now apply model_loads|].
  pose proof (trained_uncal d T) as U. unfold MonoModel.fit, MonoModel.refit. cbn. rewrite U, F. cbn. repeat split; auto.
Qed.
(* the solver of a model is not read back: there is none, or a new PlainSolver *)
Lemma solver_lost I X d s : lsx_ok X -> reach X d -> positive_dims d -> m_solver d = Some s -> s <> new_plain -> exists d', loads_as I (SvModel d) (model_load (m_kind d) (m_frozen d)) d' /\ m_solver d' <> Some s.
Proof.
  intros HX HR P E N. pose proof (mi_s X d (reach_minv X d HX HR)) as H. exists (loaded d). split; [now apply model_loads|]. cbn. destruct (m_frozen d); [discriminate|].
  destruct (_ =? 0); [discriminate|]. congruence.
Qed.
