(* MonoFit.v -- what fit() and refit() leave behind: the learned operators are the columns of the solved matrix and
   minimise the residual of the model. *)
From Coq Require Import ZArith String.
From Verif Require Export MonoInv.
#[local] Open Scope nat_scope.

(* the model and its solver hold the regression problem of the data Q, Z and (if the model takes inputs) U *)
Record fitted (X : lsx) (d : model) (r m k : nat) (Q Z U : mat) (inputs : option arr) : Prop := {
  ft_inv : sinv d;
  ft_ne : m_infer d <> [];
  ft_dims : 0 < r /\ 0 < m /\ 0 < k;
  ft_data : is_mat r k Q /\ is_mat r k Z /\ is_mat m k U;
  ft_r : m_r d = Some r;
  ft_in : m_hasin d = true -> m_m d = Some m /\ exists u, inputs = Some u /\ atleast_2d u = U;
  ft_noin : m_hasin d = false -> m_m d = Some 0;
  ft_solver : exists s L, m_solver d = Some s /\ winv X s /\
    clean X s (hstack (map (dblock Q U (m_ops d)) (m_infer d))) L /\ is_mat r k L /\
    forall i j, i < r -> j < k -> mget L i j = (mget Z i j - lsum (map (posval (colv r Q j) (colv m U j) i (m_ops d)) (m_known d)))%R }.

Definition sframe (d d' : model) : Prop := frame (with_solver (m_solver d') d) d'.
Definition samepen (d d' : model) : Prop :=
  forall s s' w, m_solver d = Some s -> m_solver d' = Some s' -> penalty s' w = penalty s w.

Lemma wd_cls r m l l' i : map mo_cls l = map mo_cls l' -> wd r m l i = wd r m l' i.
Proof. intros H. unfold wd. assert (E : nth_error (map mo_cls l) i = nth_error (map mo_cls l') i) by congruence.
  rewrite !nth_error_map in E. destruct (nth_error l i), (nth_error l' i); cbn in E; try discriminate; auto. injection E as ->. auto. Qed.
Lemma dblock_cls Q U l l' i : map mo_cls l = map mo_cls l' -> dblock Q U l i = dblock Q U l' i.
Proof. intros H. unfold dblock. assert (E : nth_error (map mo_cls l) i = nth_error (map mo_cls l') i) by congruence.
  rewrite !nth_error_map in E. destruct (nth_error l i), (nth_error l' i); cbn in E; try discriminate; auto. injection E as ->. auto. Qed.
Lemma good_2d a : good_arr a -> 0 < nrows (atleast_2d a) /\ 0 < ncols (atleast_2d a) /\ is_mat (nrows (atleast_2d a)) (ncols (atleast_2d a)) (atleast_2d a).
Proof. destruct a as [v|A]; cbn [good_arr atleast_2d].
  - intros H. cbn. split; [lia|]. split; auto. split; auto.
  - intros (r & c & Hr & Hc & HA). rewrite (is_mat_nrows _ _ _ HA), (ncols_is_mat _ _ _ HA Hr). auto. Qed.
Lemma lsumn_pos l : l <> [] -> (forall x, In x l -> 0 < x) -> 0 < lsumn l.
Proof. destruct l as [|a l]; intros H H1; [congruence|]. change (lsumn (a :: l)) with (a + lsumn l). specialize (H1 a (or_introl eq_refl)). lia. Qed.

Lemma width_pos r m l ix : 0 < r -> 0 < m -> ix <> [] -> (forall i, In i ix -> i < length l) -> 0 < lsumn (map (wd r m l) ix).
Proof. intros Hr Hm Hne Hin. apply lsumn_pos. { destruct ix; cbn; congruence. } intros x Hx. apply in_map_iff in Hx. destruct Hx as (i & <- & Hi).
  unfold wd. specialize (Hin i Hi). destruct (nth_error l i) as [o|] eqn:E; [|apply nth_error_None in E; lia]. apply op_dim_pos; auto. Qed.

Lemma fit_solver_inv X d states lhs inputs d' x : lsx_ok X -> sinv d -> m_frozen d = false -> m_intrusive d = false ->
  (forall s, m_solver d = Some s -> winv X s) -> good_arr states -> good_arr lhs -> valid_in inputs ->
  fit_solver X d states lhs inputs = (d', x) ->
  sinv d' /\ sframe d d' /\ cleared d' /\ (forall s, m_solver d' = Some s -> winv X s) /\
  (x = Ok tt -> samepen d d' /\ exists r m k U, fitted X d' r m k (atleast_2d states) (atleast_2d lhs) U inputs).
Proof. intros HX H Hf Hi HW G1 G2 G3 E. unfold fit_solver in E.
  destruct (process_fit d states lhs inputs) as [d1 x1] eqn:EP. destruct (process_fit_inv _ _ _ _ _ _ H Hf EP) as ((H1 & F1 & C1) & HP).
  assert (HS1 : m_solver d1 = m_solver d) by apply F1.
  assert (HF1 : sframe d d1). { unfold sframe. rewrite HS1. exact F1. }
  assert (HW1 : forall s, m_solver d1 = Some s -> winv X s) by (rewrite HS1; auto).
  destruct x1 as [[[Q L'] oU]|e]; cbn [seqm] in E. 2:{ injection E as <- <-. split; auto. split; auto. split; auto. split; auto. discriminate. }
  destruct (HP Q L' oU eq_refl) as (EQ & Er & EL & EC & ES & Hin & Hno). clear HP. subst Q. set (Q := atleast_2d states) in *. set (Z := atleast_2d lhs) in *.
  destruct (assemble d1 Q oU) as [D|] eqn:EA. 2:{ injection E as <- <-. split; auto. split; auto. split; auto. split; auto. discriminate. }
  destruct (m_solver d1) as [s|] eqn:Es. 2:{ injection E as <- <-. split; auto. split; auto. split; auto. split; [intros; congruence|discriminate]. }
  destruct (lsq_fit X s (M D) (M L')) as [s' x'] eqn:EF. injection E as <- <-.
  destruct (good_2d states G1) as (Hr & Hk & HQ). destruct (good_2d lhs G2) as (_ & _ & HZ). fold Q in Hr, Hk, HQ. fold Z in HZ. rewrite EL, EC in HZ.
  set (r := nrows Q) in *. set (k := ncols Q) in *.
  assert (Hne : m_infer d1 <> []).
  { destruct F1 as (_ & _ & F3 & _). rewrite F3. rewrite (si_intr d H) in Hi. intros Hx. rewrite Hx in Hi. discriminate. }
  assert (Hh1 : m_hasin d1 = m_hasin d) by apply F1.
  assert (HUeff : exists m U, 0 < m /\ is_mat m k U /\ (m_hasin d = true -> m_m d1 = Some m /\ oU = Some (M U) /\ exists u, inputs = Some u /\ atleast_2d u = U) /\
    (m_hasin d = false -> m_m d1 = Some 0)).
  { destruct (m_hasin d).
    - destruct (Hin eq_refl) as (u & Eu & EU & Em & Ec). subst inputs. destruct (good_2d u G3) as (Hm & _ & HU). rewrite Ec in HU.
      exists (nrows (atleast_2d u)), (atleast_2d u). split; auto. split; auto. split; [|discriminate]. intros _. split; auto. split; auto. eauto.
    - destruct (Hno eq_refl) as [_ Em]. exists 1, (mzeros 1 k). split; auto. split; [apply is_mat_mzeros|]. split; [discriminate|auto]. }
  destruct HUeff as (m & U & Hm & HU & HUin & HUno).
  assert (HIn : forall o, In o (m_ops d1) -> takes_input o = true -> oU = Some (M U)).
  { intros o Ho Ht. apply HUin. rewrite <- Hh1. eapply sinv_takes; eauto. }
  rewrite (assemble_ok r m k d1 Q U oU) in EA; auto.
  2:{ intros a Ha. destruct (nth_error (m_ops d1) a) as [o|] eqn:Eo. 2:{ apply nth_error_None in Eo. specialize (sinv_lt d1 a H1 Ha). lia. }
      exists o. split; auto. intros Ht. eapply HIn; eauto. eapply nth_error_In; eauto. }
  injection EA as ED.
  destruct (subtract_ok r m k (m_ops d1) Q U oU Hr Hm HQ HU (m_known d1) Z) as (L2 & EL2 & HL2 & HLv); auto.
  { intros a Ha. destruct (si_known d1 H1 a Ha) as (o & e & Eo & Ee). exists o. split; auto. assert (Hino := nth_error_In _ _ Eo).
    split; [|intros; eapply HIn; eauto].
    assert (HV := si_valid d1 H1 o Hino). exists e. split; auto.
    assert (Hrow : op_rows e = r). { assert (Hx := si_r d1 H1 e). rewrite Er in Hx. assert (Some r = Some (op_rows e)); [apply Hx|congruence]. apply in_entries_of. eauto. }
    destruct (valid_wf o e m HV Ee) as (_ & Hc & Hw).
    { intros Ht. assert (Hx := si_m d1 H1 o e Hino Ht Ee). destruct HUin as [HUm _]; [rewrite <- Hh1; eapply sinv_takes; eauto|]. congruence. }
    rewrite Hrow in Hw. auto. }
  rewrite EL2 in ES. injection ES as ->.
  assert (HB := dblocks r m k Q U (m_ops d1) (m_infer d1) Hr Hm HQ HU (fun a => sinv_lt d1 a H1)).
  assert (HD : is_mat k (lsumn (map (wd r m (m_ops d1)) (m_infer d1))) D).
  { rewrite <- ED. apply is_mat_hstack; auto. destruct (m_infer d1); cbn; congruence. }
  assert (GD : good_arr (M D)). { eexists _, _. split; [exact Hk|]. split; [|exact HD]. apply width_pos; auto. intros i Hi'. eapply sinv_lt; eauto. }
  assert (GL : good_arr (M L')). { eexists _, _. split; [exact Hr|]. split; [exact Hk|exact HL2]. }
  assert (HWs := HW1 s eq_refl).
  assert (W' : winv X s'). { assert (Hx := lsq_fit_winv X s (M D) (M L') HWs GD GL). rewrite EF in Hx. exact Hx. }
  split. { destruct H1. constructor; auto. }
  split. { unfold sframe. unfold frame. cbn [with_solver m_kind m_frozen m_infer m_known m_hasin m_intrusive m_solver m_ops]. destruct F1 as (A1&A2&A3&A4&A5&A6&A7&A8&A9&A10). repeat split; auto. }
  split; [exact C1|]. split. { cbn. intros s0 [= <-]. exact W'. }
  intros ->. destruct (lsq_fit_clean X s (M D) (M L') s' HX HWs GD GL EF) as (D' & ED' & HC & HPn). injection ED' as <-. cbn [atleast_2d] in HC.
  split. { unfold samepen. cbn. intros s0 s1 w E0 [= <-]. rewrite <- HS1 in E0. injection E0 as <-. apply HPn. }
  exists r, m, k, U. constructor; cbn [with_solver m_ops m_infer m_r m_m m_hasin m_known m_solver]; auto.
  - destruct H1. constructor; auto.
  - intros Hx. rewrite Hh1 in Hx. destruct (HUin Hx) as (? & _ & ?). auto.
  - intros Hx. apply HUno. congruence.
  - exists s', L'. split; auto. split; auto. rewrite ED. split; auto. Qed.

(* ---- regularizers --------------------------------------------------------------------------------------------------------- *)
Lemma set_regularizer_fitted X d g d' r m k Q Z U inputs : fitted X d r m k Q Z U inputs -> valid_reg g -> set_regularizer g d = (d', Ok tt) ->
  fitted X d' r m k Q Z U inputs.
Proof. intros H HG E. unfold set_regularizer in E. destruct (ft_solver _ _ _ _ _ _ _ _ _ H) as (s & L & Es & HW & HC & HL & HV). rewrite Es in E.
  destruct (lsq_setreg s g) as [s' x] eqn:EG. injection E as <- ->. destruct H. constructor; cbn [with_solver m_ops m_infer m_r m_m m_hasin m_known m_solver]; auto.
  - destruct ft_inv0. constructor; auto.
  - exists s', L. split; auto. split.
    { assert (Hx := lsq_setreg_winv X s g HW HG). rewrite EG in Hx. exact Hx. }
    split; auto. eapply lsq_setreg_clean; eauto. Qed.

(* ---- other values of the learned operators --------------------------------------------------------------------------------- *)
Lemma candidate_es r m d l : candidate r m d l -> exists es,
  Forall2 (fun a e => exists o, nth_error l a = Some o /\ mo_ent o = Some e /\ cls_of e = mo_cls o /\ wf_op r m e) (m_infer d) es.
Proof. intros (_ & _ & H). induction (m_infer d) as [|a ix IH]; [exists []; constructor|].
  destruct (H a (or_introl eq_refl)) as (o & e & E1 & E2 & E3 & E4). destruct IH as [es IH]; [intros; apply H; right; auto|].
  exists (e :: es). constructor; auto. exists {| mo_cls := mo_cls o; mo_ent := Some e |}. auto. Qed.
Lemma nth_error_map_ext {A B} (f : A -> B) l l' : length l = length l' ->
  (forall i o o', nth_error l i = Some o -> nth_error l' i = Some o' -> f o = f o') -> map f l = map f l'.
Proof. revert l'. induction l as [|a l IH]; intros [|b l'] HL H; cbn in *; try discriminate; auto. f_equal; [apply (H 0); auto|].
  apply IH; [lia|]. intros i o o' E E'. apply (H (S i)); auto. Qed.
Lemma candidate_cls r m d l : sinv d -> candidate r m d l -> map mo_cls l = map mo_cls (m_ops d).
Proof. intros H (HL & HK & HI). apply nth_error_map_ext; auto. intros i o o' E E'.
  assert (Hi : i < length (m_ops d)) by (apply nth_error_Some; congruence). apply (sinv_in d i H) in Hi. destruct Hi as [Hi|Hi].
  - destruct (HI i Hi) as (o1 & e & E1 & E2 & _). rewrite E' in E1. rewrite E in E2. injection E1 as <-. injection E2 as ->. reflexivity.
  - rewrite HK in E by auto. congruence. Qed.

Lemma known_sized X d r m k Q Z U inputs i : fitted X d r m k Q Z U inputs -> In i (m_known d) -> exists o, nth_error (m_ops d) i = Some o /\ sized r m o.
Proof. intros H Hi. destruct (si_known d (ft_inv _ _ _ _ _ _ _ _ _ H) i Hi) as (o & e & Eo & Ee). exists o. split; auto.
  assert (HI := ft_inv _ _ _ _ _ _ _ _ _ H). assert (Hino := nth_error_In _ _ Eo). assert (HV := si_valid d HI o Hino). exists e. split; auto.
  assert (Er := ft_r _ _ _ _ _ _ _ _ _ H).
  assert (Hrow : op_rows e = r). { assert (Hx := si_r d HI e). rewrite Er in Hx. assert (Some r = Some (op_rows e)); [apply Hx|congruence]. apply in_entries_of. eauto. }
  destruct (valid_wf o e m HV Ee) as (_ & Hc & Hw).
  { intros Ht. assert (Hx := si_m d HI o e Hino Ht Ee). destruct (ft_in _ _ _ _ _ _ _ _ _ H) as [HUm _]; [eapply sinv_takes; eauto|]. congruence. }
  rewrite Hrow in Hw. auto. Qed.
Lemma candidate_sized X d r m k Q Z U inputs l : fitted X d r m k Q Z U inputs -> candidate r m d l -> Forall (sized r m) l.
Proof. intros H (HL & HK & HI). apply Forall_forall. intros o Ho. apply In_nth_error in Ho. destruct Ho as [i E].
  assert (Hi : i < length (m_ops d)) by (rewrite <- HL; apply nth_error_Some; congruence).
  apply (sinv_in d i (ft_inv _ _ _ _ _ _ _ _ _ H)) in Hi. destruct Hi as [Hi|Hi].
  - destruct (HI i Hi) as (o1 & e & E1 & E2 & E3 & E4). rewrite E in E2. injection E2 as ->. exists e. auto.
  - destruct (known_sized _ _ _ _ _ _ _ _ _ i H Hi) as (o1 & E1 & Hs). rewrite <- HK in E1 by auto. congruence. Qed.

Lemma ucol_fitted X d r m k Q Z U inputs l o j : fitted X d r m k Q Z U inputs -> map mo_cls l = map mo_cls (m_ops d) -> In o l -> takes_input o = true ->
  ucol inputs j = Some (V (colv m U j)).
Proof. intros H HC Ho Ht. assert (Hh : m_hasin d = true).
  { rewrite (si_hasin d (ft_inv _ _ _ _ _ _ _ _ _ H)). rewrite <- (existsb_cls l (m_ops d) HC). apply existsb_exists. eauto. }
  destruct (ft_in _ _ _ _ _ _ _ _ _ H Hh) as (_ & u & -> & Eu). cbn [ucol]. rewrite Eu.
  assert (HU := proj2 (proj2 (ft_data _ _ _ _ _ _ _ _ _ H))). rewrite (is_mat_nrows _ _ _ HU). reflexivity. Qed.

Definition opmat (l : list mop) (ix : list nat) : mat := hstack (map entries2 (entries_of (flat_map (fun i => match nth_error l i with Some o => [o] | None => [] end) ix))).
Lemma opmat_es r m l ix es : Forall2 (fun a e => exists o, nth_error l a = Some o /\ mo_ent o = Some e /\ cls_of e = mo_cls o /\ wf_op r m e) ix es ->
  opmat l ix = hstack (map entries2 es).
Proof. intros H. unfold opmat. f_equal. f_equal. induction H as [|a e ix es (o & Eo & Ee & _) H IH]; auto. cbn [flat_map]. rewrite Eo. cbn [app].
  unfold entries_of. cbn [flat_map]. rewrite Ee. cbn [app]. f_equal. exact IH. Qed.
Lemma opmat_shape r m l ix es : ix <> [] -> Forall2 (fun a e => exists o, nth_error l a = Some o /\ mo_ent o = Some e /\ cls_of e = mo_cls o /\ wf_op r m e) ix es ->
  is_mat r (lsumn (map (wd r m l) ix)) (opmat l ix).
Proof. intros Hne H. rewrite (opmat_es r m l ix es H). apply is_mat_hstack.
  - clear Hne. induction H as [|x y lx ly (o & Eo & Ee & Hc & Hw) H IH]; cbn [map]; constructor; auto.
    unfold wd. rewrite Eo, <- Hc, opdim_proto. apply entries2_shape; auto.
  - inversion H; subst; cbn; congruence. Qed.

(* the residual of a candidate is the misfit of its operator matrix *)
Lemma candidate_residual X d r m k Q Z U inputs l s L : fitted X d r m k Q Z U inputs -> candidate r m d l ->
  let D := hstack (map (dblock Q U (m_ops d)) (m_infer d)) in
  let w := lsumn (map (wd r m (m_ops d)) (m_infer d)) in
  m_solver d = Some s -> clean X s D L ->
  (forall i j, i < r -> j < k -> mget L i j = (mget Z i j - lsum (map (posval (colv r Q j) (colv m U j) i (m_ops d)) (m_known d)))%R) ->
  is_mat r w (opmat l (m_infer d)) /\
  exists f, (forall j, j < k -> rhs (with_ops l d) (V (colv r Q j)) (ucol inputs j) = Ok (V (f j)) /\ length (f j) = r) /\
    forall i, i < r -> bsum k (fun j => Rsqr (vget (f j) i - mget Z i j)) = misfit k w D L (opmat l (m_infer d)) i.
Proof. intros H HC D w Es HCl HLv. destruct (ft_dims _ _ _ _ _ _ _ _ _ H) as (Hr & Hm & Hk). destruct (ft_data _ _ _ _ _ _ _ _ _ H) as (HQ & HZ & HU).
  assert (HI := ft_inv _ _ _ _ _ _ _ _ _ H). assert (Hne := ft_ne _ _ _ _ _ _ _ _ _ H).
  assert (Hcls := candidate_cls r m d l HI HC). destruct (candidate_es r m d l HC) as (es & Hes).
  assert (HSz := candidate_sized _ _ _ _ _ _ _ _ _ l H HC).
  assert (Ew : forall ix, map (wd r m (m_ops d)) ix = map (wd r m l) ix). { intros ix. apply map_ext. intros i. apply wd_cls. auto. }
  split. { unfold w. rewrite Ew. eapply opmat_shape; eauto. }
  assert (HR : forall j, exists y, rhs (with_ops l d) (V (colv r Q j)) (ucol inputs j) = Ok (V y) /\ is_vec r y /\
    forall i, i < r -> vget y i = lsum (map (opval (colv r Q j) (colv m U j) i) l)).
  { intros j. apply (rhs_value r m (with_ops l d)); auto using is_vec_colv. intros o Ho Ht. eapply ucol_fitted; eauto. }
  assert (HR2 : exists f : nat -> vec, forall j, rhs (with_ops l d) (V (colv r Q j)) (ucol inputs j) = Ok (V (f j)) /\ is_vec r (f j) /\
    forall i, i < r -> vget (f j) i = lsum (map (opval (colv r Q j) (colv m U j) i) l)).
  { exists (fun j => match rhs (with_ops l d) (V (colv r Q j)) (ucol inputs j) with Ok (V y) => y | _ => [] end). intros j.
    destruct (HR j) as (y & E & Hy). rewrite E. auto. }
  destruct HR2 as (f & Hf). exists f. split. { intros j Hj. destruct (Hf j) as (E & Hl & _). split; auto. }
  intros i Hi. unfold misfit. apply bsum_ext. intros j Hj. f_equal. destruct (Hf j) as (_ & _ & Hv). rewrite Hv by auto. rewrite HLv by auto.
  rewrite (posval_parts _ _ _ l (m_infer d) (m_known d)). 2:{ destruct HC as [HL _]. rewrite HL. apply (si_perm d HI). }
  rewrite (posval_ext _ _ _ (m_ops d) l (m_known d)) by (destruct HC as (_ & HK & _); auto).
  assert (E : bsum w (fun b => (mget D j b * mget (opmat l (m_infer d)) i b)%R) = lsum (map (posval (colv r Q j) (colv m U j) i l) (m_infer d))).
  { rewrite <- (hstack_dot r m k Q U l i j Hr Hm HQ HU Hi Hj (m_infer d) es Hes Hne). unfold w. rewrite Ew.
    rewrite (opmat_es r m l _ es Hes). unfold D. rewrite (map_ext (dblock Q U (m_ops d)) (dblock Q U l)) by (intros; apply dblock_cls; auto). reflexivity. }
  rewrite E. ring. Qed.

(* ---- refit ----------------------------------------------------------------------------------------------------------------- *)
Lemma opmat_ok l ix es : Forall2 (fun a e => exists o, nth_error l a = Some o /\ mo_ent o = Some e) ix es ->
  mapM (fun i => do o <- nth_op i l; match mo_ent o with Some e => Ok (entries2 e) | None => Err AttributeError end) ix = Ok (map entries2 es).
Proof. induction 1 as [|a e ix es (o & Eo & Ee) H IH]; auto. cbn [mapM map]. unfold nth_op at 1. rewrite Eo. cbn [bind]. rewrite Ee. cbn [bind]. rewrite IH. reflexivity. Qed.
Lemma sized_cal r m o : sized r m o -> uncal o = false.
Proof. intros (e & E & _). unfold uncal. rewrite E. auto. Qed.
Lemma trained_sized d r m : m_r d = Some r -> (m_hasin d = true -> m_m d <> None) -> Forall (sized r m) (m_ops d) -> check_trained d = Ok tt.
Proof. intros Er Hm HF. unfold check_trained. rewrite Er. assert (E1 : m_hasin d && match m_m d with None => true | Some _ => false end = false).
  { destruct (m_hasin d); auto. destruct (m_m d); auto. exfalso. apply Hm; auto. } rewrite E1.
  assert (E2 : existsb uncal (m_ops d) = false). { clear - HF. induction HF as [|o l Ho HF IH]; auto. cbn. rewrite (sized_cal r m o Ho). auto. }
  rewrite E2. reflexivity. Qed.
Lemma candidate_opmatrix X d r m k Q Z U inputs l : fitted X d r m k Q Z U inputs -> candidate r m d l ->
  operator_matrix (with_ops l d) = Ok (opmat l (m_infer d)).
Proof. intros H HC. unfold operator_matrix. rewrite (trained_sized (with_ops l d) r m).
  - cbn [bind with_ops m_ops m_infer]. destruct (candidate_es r m d l HC) as (es & Hes).
    assert (Hes2 : Forall2 (fun a e => exists o, nth_error l a = Some o /\ mo_ent o = Some e) (m_infer d) es).
    { clear - Hes. induction Hes as [|a e ix es (o & Eo & Ee & _) H IH]; constructor; eauto. }
    rewrite (opmat_ok l (m_infer d) es Hes2). cbn [bind]. rewrite (opmat_es r m l _ es Hes).
    assert (Hne := ft_ne _ _ _ _ _ _ _ _ _ H). inversion Hes; subst; [congruence|]. reflexivity.
  - apply (ft_r _ _ _ _ _ _ _ _ _ H).
  - intros Hh. destruct (ft_in _ _ _ _ _ _ _ _ _ H Hh) as [E _]. cbn in *. congruence.
  - cbn. eapply candidate_sized; eauto. Qed.

Lemma refit_intrusive X d : m_intrusive d = true -> refit X d = (d, Ok tt).
Proof. intros E. unfold refit. rewrite E. auto. Qed.
Lemma width_m X d r m k Q Z U inputs mm : fitted X d r m k Q Z U inputs -> m_m d = Some mm -> forall i, wd r mm (m_ops d) i = wd r m (m_ops d) i.
Proof. intros H Em i. unfold wd. destruct (nth_error (m_ops d) i) as [o|] eqn:E; auto. destruct (m_hasin d) eqn:Eh.
  - destruct (ft_in _ _ _ _ _ _ _ _ _ H Eh) as [Em2 _]. congruence.
  - apply opdim_noinput. destruct (takes_input o) eqn:Et; auto. assert (Hx := sinv_takes d o (ft_inv _ _ _ _ _ _ _ _ _ H) (nth_error_In _ _ E) Et). congruence. Qed.
Lemma wf_m X d r m k Q Z U inputs mm o e : fitted X d r m k Q Z U inputs -> m_m d = Some mm -> In o (m_ops d) -> cls_of e = mo_cls o -> (wf_op r mm e <-> wf_op r m e).
Proof. intros H Em Ho Hc. destruct (m_hasin d) eqn:Eh.
  - destruct (ft_in _ _ _ _ _ _ _ _ _ H Eh) as [Em2 _]. rewrite Em in Em2. injection Em2 as <-. tauto.
  - assert (Et : has_inputs (cls_of e) = false).
    { rewrite Hc. change (takes_input o = false). destruct (takes_input o) eqn:Et; auto. assert (Hx := sinv_takes d o (ft_inv _ _ _ _ _ _ _ _ _ H) Ho Et). congruence. }
    split; apply wf_noinput; auto. Qed.
Lemma candidate_m X d r m k Q Z U inputs mm l : fitted X d r m k Q Z U inputs -> m_m d = Some mm -> (candidate r mm d l <-> candidate r m d l).
Proof. intros H Em. unfold candidate. split; intros (H1 & H2 & H3); split; auto; split; auto; intros i Hi; destruct (H3 i Hi) as (o & e & E1 & E2 & E3 & E4);
  exists o, e; split; auto; split; auto; split; auto; eapply (wf_m X d r m k Q Z U inputs mm o e); eauto; eapply nth_error_In; eauto. Qed.
Lemma candidate_inv X d r m k Q Z U inputs l : fitted X d r m k Q Z U inputs -> candidate r m d l -> sinv (with_ops l d).
Proof. intros H HC. assert (HI := ft_inv _ _ _ _ _ _ _ _ _ H). assert (Hcls := candidate_cls r m d l HI HC). assert (HSz := candidate_sized _ _ _ _ _ _ _ _ _ l H HC).
  destruct (ft_dims _ _ _ _ _ _ _ _ _ H) as (Hr & Hm & _). assert (Er := ft_r _ _ _ _ _ _ _ _ _ H). rewrite Forall_forall in HSz.
  assert (Hrows : forall e, wf_op r m e -> op_rows e = r). { intros e; destruct e; cbn; try (intros []; auto); auto. }
  destruct HC as (HL & HK & HIn). destruct HI. constructor; cbn [with_ops m_ops m_infer m_known m_hasin m_r m_m m_intrusive]; auto.
  - destruct l; [|congruence]. destruct (m_ops d); [congruence|discriminate].
  - intros o Ho e Ee. destruct (HSz o Ho) as (e' & E' & Hc & Hw). rewrite Ee in E'. injection E' as <-. split; auto. exists r, m. auto.
  - rewrite si_hasin. symmetry. apply existsb_cls; auto.
  - rewrite HL. auto.
  - intros i Hi. rewrite HK by auto. auto.
  - intros i j o o' Hi Hj Eo Eo' Hc. destruct (HIn i Hi) as (o1 & e1 & E1 & E2 & _). destruct (HIn j Hj) as (o2 & e2 & E3 & E4 & _).
    apply (si_dup i j o1 o2); auto. rewrite Eo in E2. rewrite Eo' in E4. injection E2 as ->. injection E4 as ->. exact Hc.
  - intros e He. apply in_entries_of in He. destruct He as (o & Ho & Ee). destruct (HSz o Ho) as (e' & E' & _ & Hw). rewrite Ee in E'. injection E' as <-.
    rewrite (Hrows e Hw). auto.
  - intros o e Ho Ht Ee. destruct (HSz o Ho) as (e' & E' & Hc & Hw). rewrite Ee in E'. injection E' as <-.
    assert (Hh : m_hasin d = true). { rewrite si_hasin. rewrite <- (existsb_cls l (m_ops d) Hcls). apply existsb_exists. eauto. }
    destruct (ft_in _ _ _ _ _ _ _ _ _ H Hh) as [Em _]. rewrite Em. f_equal. unfold takes_input in Ht. rewrite <- Hc in Ht.
    destruct e; cbn in *; try discriminate.
    + rewrite (ncols_is_mat r m B Hw Hr). auto.
    + rewrite (ncols_is_mat r (r * m) N Hw Hr), (is_mat_nrows _ _ _ Hw), Nat.mul_comm, Nat.div_mul by lia. auto. Qed.

Lemma fitted_ops X d r m k Q Z U inputs l : fitted X d r m k Q Z U inputs -> candidate r m d l -> fitted X (with_ops l d) r m k Q Z U inputs.
Proof. intros H HC. assert (HI2 := candidate_inv _ _ _ _ _ _ _ _ _ l H HC). assert (Hcls := candidate_cls r m d l (ft_inv _ _ _ _ _ _ _ _ _ H) HC).
  destruct H. constructor; cbn [with_ops m_ops m_infer m_r m_m m_hasin m_known m_solver]; auto.
  destruct ft_solver0 as (s & L & E1 & E2 & E3 & E4 & E5). exists s, L. split; auto. split; auto. split; [|split; auto].
  - rewrite (map_ext (dblock Q U l) (dblock Q U (m_ops d))) by (intros; apply dblock_cls; auto). auto.
  - intros i j Hi Hj. rewrite E5 by auto. rewrite (posval_ext _ _ _ (m_ops d) l) by (destruct HC as (_ & HK & _); auto). auto. Qed.

Lemma refit_inv X d d' x r m k Q Z U inputs : lsx_ok X -> fitted X d r m k Q Z U inputs -> refit X d = (d', x) ->
  (x <> Ok tt -> d' = d /\ exists s e, m_solver d = Some s /\ lsq_solve X s = Err e /\ x = Err e) /\
  (x = Ok tt -> exists s O l, m_solver d = Some s /\ lsq_solve X s = Ok O /\ d' = with_ops l d /\ candidate r m d l /\
     opmat l (m_infer d) = O /\ is_mat r (lsumn (map (wd r m (m_ops d)) (m_infer d))) O /\
     exists es, Forall2 (fun i e => exists o, ent_at (m_ops d) r m i o e l) (m_infer d) es /\ at_cols r m O 0 (m_infer d) (m_ops d) es).
Proof. intros HX H E. assert (HI := ft_inv _ _ _ _ _ _ _ _ _ H). assert (Hne := ft_ne _ _ _ _ _ _ _ _ _ H).
  destruct (ft_dims _ _ _ _ _ _ _ _ _ H) as (Hr & Hm & Hk). destruct (ft_data _ _ _ _ _ _ _ _ _ H) as (HQ & HZ & HU).
  unfold refit in E. assert (Ei : m_intrusive d = false). { rewrite (si_intr d HI). destruct (m_infer d); [congruence|auto]. } rewrite Ei in E.
  destruct (ft_solver _ _ _ _ _ _ _ _ _ H) as (s & L & Es & HW & HC & HL & HLv). rewrite Es in E.
  destruct (lsq_solve X s) as [O|e] eqn:EO.
  2:{ injection E as <- <-. split; [|discriminate]. intros _. split; auto. exists s, e. auto. }
  assert (HB := dblocks r m k Q U (m_ops d) (m_infer d) Hr Hm HQ HU (fun a => sinv_lt d a HI)).
  assert (HD : is_mat k (lsumn (map (wd r m (m_ops d)) (m_infer d))) (hstack (map (dblock Q U (m_ops d)) (m_infer d)))).
  { apply is_mat_hstack; auto. destruct (m_infer d); cbn; congruence. }
  destruct (lsq_solve_clean X s _ L O HX HC EO) as (HO & _). rewrite (ncols_is_mat _ _ _ HD Hk), (is_mat_nrows _ _ _ HL) in HO.
  assert (Emm : exists mm, m_m d = Some mm).
  { destruct (m_hasin d) eqn:Eh; [destruct (ft_in _ _ _ _ _ _ _ _ _ H Eh) as [? _]; eauto|exists 0; apply (ft_noin _ _ _ _ _ _ _ _ _ H Eh)]. }
  destruct Emm as [mm Em]. assert (Ew := width_m _ _ _ _ _ _ _ _ _ mm H Em).
  rewrite (ft_r _ _ _ _ _ _ _ _ _ H), Em in E.
  destruct (extract_ok r mm O (lsumn (map (wd r m (m_ops d)) (m_infer d))) Hr HO (m_infer d) 0 (m_ops d)) as (l & es & E1 & E2 & E3 & E4 & E5).
  { apply sinv_infer_nodup; auto. } { intros; eapply sinv_lt; eauto. } { rewrite (map_ext _ _ Ew). cbn. lia. }
  rewrite E1 in E. injection E as <- <-. split; [congruence|]. intros _. exists s, O, l. split; auto. split; auto. split; auto.
  assert (HCand : candidate r m d l).
  { split; auto. split. { intros i Hi. apply E3. intros Hx. eapply sinv_disj; eauto. }
    intros i Hi. clear - E4 Hi Em H. induction E4 as [|a e ix es (o & Eo & En & Hc & Hw) E4 IH]; [destruct Hi|]. destruct Hi as [<-|Hi]; auto.
    exists o, e. split; auto. split; auto. split; auto. eapply (wf_m X d r m k Q Z U inputs mm o e); eauto. eapply nth_error_In; eauto. }
  assert (E4m : Forall2 (fun i e => exists o, ent_at (m_ops d) r m i o e l) (m_infer d) es).
  { clear - E4 Em H. induction E4 as [|a e ix es (o & Eo & En & Hc & Hw) E4 IH]; constructor; auto. exists o. split; auto. split; auto. split; auto.
    eapply (wf_m X d r m k Q Z U inputs mm o e); eauto. eapply nth_error_In; eauto. }
  assert (E5m : at_cols r m O 0 (m_infer d) (m_ops d) es).
  { clear - E5 Ew. revert E5. generalize 0 (m_infer d). intros idx ix. revert idx es. induction ix as [|i ix IH]; intros idx [|e es]; cbn; auto.
    rewrite Ew. intros [A B]. split; auto. }
  split; auto. split; [|split; auto; exists es; auto].
  assert (Hes : Forall2 (fun a e => exists o, nth_error l a = Some o /\ mo_ent o = Some e /\ cls_of e = mo_cls o /\ wf_op r m e) (m_infer d) es).
  { clear - E4m. induction E4m as [|a e ix es (o & Eo & En & Hc & Hw) E4 IH]; constructor; auto. eexists. split; [exact En|]. auto. }
  rewrite (opmat_es r m l _ es Hes). rewrite (at_cols_hstack r m O _ HO (m_infer d) 0 (m_ops d) es Hne ltac:(cbn; lia) E5m). cbn [Nat.add].
  apply (mcols_all r); auto. Qed.

(* the learned operators minimise every row of the residual plus penalty *)
Lemma refit_minimises X d d' r m k Q Z U inputs : lsx_ok X -> fitted X d r m k Q Z U inputs -> refit X d = (d', Ok tt) ->
  fitted X d' r m k Q Z U inputs /\ check_trained d' = Ok tt /\
  exists O, operator_matrix d' = Ok O /\
  forall l, candidate r m d' l -> exists O', operator_matrix (with_ops l d') = Ok O' /\
    forall s pen, m_solver d' = Some s -> penalty s (ncols O) = Some pen -> forall i x y, i < r ->
      residual_row d' r k Q Z inputs i x -> residual_row (with_ops l d') r k Q Z inputs i y -> (x + pen O i <= y + pen O' i)%R.
Proof. intros HX H E. destruct (refit_inv X d d' (Ok tt) r m k Q Z U inputs HX H E) as [_ HR]. destruct (HR eq_refl) as (s & O & l0 & Es & EO & -> & HC0 & EOm & HO & _). clear HR.
  assert (H' := fitted_ops _ _ _ _ _ _ _ _ _ l0 H HC0). split; auto.
  assert (HSz := candidate_sized _ _ _ _ _ _ _ _ _ l0 H HC0). split.
  { apply (trained_sized _ r m); cbn; auto. apply (ft_r _ _ _ _ _ _ _ _ _ H). intros Hh. destruct (ft_in _ _ _ _ _ _ _ _ _ H Hh). congruence. }
  exists O. split. { rewrite (candidate_opmatrix _ _ _ _ _ _ _ _ _ l0 H HC0). congruence. }
  assert (HCself : candidate r m (with_ops l0 d) l0).
  { destruct HC0 as (A & B & C). split; cbn; auto. split; auto. intros i Hi. destruct (C i Hi) as (o & e & E1 & E2 & E3 & E4).
    exists {| mo_cls := mo_cls o; mo_ent := Some e |}, e. cbn. auto. }
  intros l HC. exists (opmat l (m_infer d)). split. { rewrite (candidate_opmatrix _ _ _ _ _ _ _ _ _ l H' HC). reflexivity. }
  intros s1 pen Es1 HP i x y Hi (f & Hf & Ex) (g & Hg & Ey). cbn in Es1. rewrite Es in Es1. injection Es1 as <-.
  destruct (ft_solver _ _ _ _ _ _ _ _ _ H) as (s2 & L & Es2 & HW & HCl & HL & HLv). rewrite Es in Es2. injection Es2 as <-.
  destruct (ft_solver _ _ _ _ _ _ _ _ _ H') as (s2 & L' & Es2 & _ & HCl' & HL' & HLv'). cbn in Es2. rewrite Es in Es2. injection Es2 as <-.
  assert (EL : L' = L).
  { apply (mat_ext r k); auto. intros a b Ha Hb. rewrite HLv, HLv' by auto. cbn. rewrite (posval_ext _ _ _ (m_ops d) l0) by (destruct HC0 as (_ & HK & _); auto). auto. }
  subst L'.
  destruct (candidate_residual _ _ _ _ _ _ _ _ _ l0 s L H' HCself) as (_ & f1 & Hf1 & Hv1); auto.
  destruct (candidate_residual _ _ _ _ _ _ _ _ _ l s L H' HC) as (HOl & f2 & Hf2 & Hv2); auto.
  assert (HIx : forall j, j < k -> f j = f1 j). { intros j Hj. destruct (Hf j Hj) as [A _]. destruct (Hf1 j Hj) as [B _]. change (with_ops l0 (with_ops l0 d)) with (with_ops l0 d) in B. congruence. }
  assert (HIy : forall j, j < k -> g j = f2 j). { intros j Hj. destruct (Hg j Hj) as [A _]. destruct (Hf2 j Hj) as [B _]. congruence. }
  assert (Ex1 : x = misfit k (lsumn (map (wd r m (m_ops (with_ops l0 d))) (m_infer d))) (hstack (map (dblock Q U (m_ops (with_ops l0 d))) (m_infer d))) L O i).
  { rewrite <- EOm. rewrite <- Hv1 by auto. rewrite Ex. apply bsum_ext. intros j Hj. rewrite HIx by auto. auto. }
  assert (Ey1 : y = misfit k (lsumn (map (wd r m (m_ops (with_ops l0 d))) (m_infer d))) (hstack (map (dblock Q U (m_ops (with_ops l0 d))) (m_infer d))) L (opmat l (m_infer d)) i).
  { rewrite <- Hv2 by auto. rewrite Ey. apply bsum_ext. intros j Hj. rewrite HIy by auto. auto. }
  destruct (ft_dims _ _ _ _ _ _ _ _ _ H) as (Hr & Hm & Hk). destruct (ft_data _ _ _ _ _ _ _ _ _ H) as (HQ & HZ & HU).
  assert (HI' := ft_inv _ _ _ _ _ _ _ _ _ H').
  assert (HB := dblocks r m k Q U (m_ops (with_ops l0 d)) (m_infer d) Hr Hm HQ HU (fun a => sinv_lt _ a HI')).
  assert (HD := is_mat_hstack k _ _ HB ltac:(assert (Hne := ft_ne _ _ _ _ _ _ _ _ _ H); destruct (m_infer d); cbn; congruence)).
  destruct (lsq_solve_clean X s _ L O HX HCl' EO) as (_ & HM).
  change (m_infer (with_ops l0 d)) with (m_infer d) in *.
  assert (EwO : ncols (hstack (map (dblock Q U (m_ops (with_ops l0 d))) (m_infer d))) = ncols O).
  { rewrite (ncols_is_mat _ _ _ HD Hk), (ncols_is_mat _ _ _ HO Hr). f_equal. apply map_ext. intros a. apply wd_cls. apply (candidate_cls r m d l0); auto. apply (ft_inv _ _ _ _ _ _ _ _ _ H). }
  rewrite EwO in HM. destruct (HM pen HP) as [_ HMin]. rewrite (is_mat_nrows _ _ _ HL), (is_mat_nrows _ _ _ HD) in HMin.
  assert (HOl2 : is_mat r (ncols O) (opmat l (m_infer d))). { rewrite <- EwO, (ncols_is_mat _ _ _ HD Hk). exact HOl. }
  specialize (HMin _ i HOl2 Hi). cbv beta in HMin. rewrite Ex1, Ey1. rewrite <- EwO, (ncols_is_mat _ _ _ HD Hk) in HMin. exact HMin. Qed.
