(* ParaEx.v -- concrete parametric models, and the claims that fail. *)
From Coq Require Import ZArith Lia Lra.
From Verif Require Import LinAlg MatAlg.
From Verif Require Export ParaInterp MonoEx.
From Verif Require Export SpecPara.
#[local] Open Scope nat_scope.

(* ---- a concrete scipy: least squares with the identity, and interpolation of constant data ---- *)
Definition lst1 (o : lsopts) (A B : mat) : res mat := if mat_eq_dec A (eye (length A)) then Ok B else Err LinAlgError.
Lemma lst1_eye o n B : lst1 o (eye n) B = Ok B.
Proof. unfold lst1. assert (E : length (eye n) = n) by apply (is_mat_len _ _ _ (is_mat_eye n)). rewrite E. destruct (mat_eq_dec _ _); [auto|congruence]. Qed.
Definition L1 : lsx := {| x_lstsq := lst1; x_lsvd := fun _ => Err LinAlgError; x_lsolve := fun _ _ => Err LinAlgError |}.
Lemma L1_ok : lsx_ok L1.
Proof. split; [|split]; [|unfold svd_spec; cbn; intros; discriminate|unfold solve_spec; cbn; intros; discriminate].
  intros o k d c A B X Hk Hd HA HB E. cbn in E. unfold lst1 in E. rewrite (is_mat_len _ _ _ HA) in E. destruct (mat_eq_dec A (eye k)) as [->|]; [|discriminate]. injection E as <-.
  assert (d = k). { rewrite <- (ncols_is_mat _ _ _ HA Hk). apply (ncols_is_mat k k); auto. apply is_mat_eye. } subst d. split; auto. intros j x Hj Hx.
  assert (HR : forall y, colres k k (eye k) B j y = bsum k (fun i => Rsqr (vget y i - mget B i j))).
  { intros y. unfold colres. apply bsum_ext. intros i Hi. do 2 f_equal. rewrite (bsum_ext k _ (fun l => ((if Nat.eqb i l then 1 else 0) * vget y l)%R)) by (intros l Hl; rewrite mget_eye by auto; auto). apply bsum_delta_l; auto. }
  rewrite !HR. rewrite (bsum_ext k (fun i => Rsqr (vget (colv k B j) i - mget B i j)) (fun _ => 0%R)) by (intros i Hi; rewrite vget_colv by auto; unfold Rsqr; ring). rewrite (bsum_0 k (fun _ => 0%R)) by auto. split; [apply bsum_nonneg; intros; apply Rle_0_sqr|].
  intros Hle. right. apply bsum_ext. intros l Hl. assert (HN : (0 <= bsum k (fun i => Rsqr (vget x i - mget B i j)))%R) by (apply bsum_nonneg; intros; apply Rle_0_sqr). assert (E := bsum_nonneg_0 k (fun i => Rsqr (vget x i - mget B i j)) ltac:(intros; apply Rle_0_sqr) ltac:(lra) l Hl). cbn in E. apply Rsqr_0_uniq in E. f_equal. lra. Qed.
Definition constC (ps : list pval) (es : list mat) : res interpolator :=
  match es with
  | [] => Err ValueError
  | e :: t => if forallb (fun x => if mat_eq_dec x e then true else false) t then Ok (fun _ => Ok e) else Err ValueError
  end.
Lemma constC_faithful : faithful constC.
Proof. intros ps es f HL E. destruct es as [|e t]; [discriminate|]. cbn in E. destruct (forallb _ t) eqn:EF; [|discriminate]. injection E as <-. rewrite forallb_forall in EF.
  assert (HE : forall i, i < length (e :: t) -> nth i (e :: t) [] = e). { intros [|i] Hi; auto. cbn. specialize (EF (nth i t []) ltac:(apply nth_In; cbn in Hi; lia)). destruct (mat_eq_dec _ e); [auto|discriminate]. }
  split; [intros _ i Hi; rewrite HE by lia; auto|]. intros r c p E HF [= <-]. inversion HF; auto. Qed.
Lemma constC_same ps e n : constC ps (repeat e (S n)) = Ok (fun _ => Ok e).
Proof. cbn. replace (forallb _ (repeat e n)) with true; auto. symmetry. apply forallb_forall. intros x Hx. apply repeat_spec in Hx. subst. destruct (mat_eq_dec e e); congruence. Qed.
Lemma constC_two ps e : constC ps [e; e] = Ok (fun _ => Ok e). Proof. apply (constC_same ps e 1). Qed.
Definition X1 : pext := {| px_l := L1; px_cubic := constC; px_linnd := constC |}.
Lemma X1_ok : pext_ok X1. Proof. split; [apply L1_ok|]. split; apply constC_faithful. Qed.

(* ---- an InterpModel with one linear operator, two parameters ---- *)
Definition lt0 : itp := {| i_cls := CLin; i_pdim := None; i_params := None; i_entries := None; i_interp := None; i_iclass := Some constC |}.
Definition base0 : pmodel := {| pm_kind := KContinuous; pm_ops := [PItp lt0]; pm_infer := [0]; pm_known := []; pm_hasin := false; pm_r := None; pm_m := Some 0; pm_p := None; pm_s := None;
  pm_intrusive := false; pm_solver := Some new_plain |}.
Definition im0 : imodel := {| im_base := base0; im_sub := None; im_params := None |}.
Lemma im0_made : imk_model KContinuous [POp (PItp lt0)] SNone = Ok im0. Proof. reflexivity. Qed.
Lemma lt0_valid : valid_pop (PItp lt0).
Proof. split; [cbn; congruence|]. intros C [= <-]. apply constC_faithful. Qed.
Lemma im0_reach : ireach X1 im0.
Proof. apply (ir_new X1 KContinuous [POp (PItp lt0)] SNone); [|constructor; [apply lt0_valid|constructor]|exact I|exact im0_made]. constructor; [|constructor]. exists lt0. auto. Qed.
Definition mus0 : list pval := [PS 0; PS 1]%R.
Definition sts0 : list arr := [V [1]; V [1]]%R.
Definition lhs0 : list arr := [V [3]; V [3]]%R.
Lemma plain_eye n Z : lsq_solve L1 (plain_of (eye n) Z) = Ok (mT (mT Z)).
Proof. cbn. unfold plain_solve. cbn [pl_data pl_opts]. cbn [x_lstsq L1]. rewrite lst1_eye. reflexivity. Qed.
Lemma solve1 z : lsq_solve L1 (plain_of [[1]]%R [[z]]) = Ok [[z]].
Proof. change [[1%R]] with (eye 1). rewrite plain_eye. reflexivity. Qed.
Definition sub (ops : list mop) (infer known : list nat) (z : R) : model := {| m_kind := KContinuous; m_frozen := false; m_ops := ops; m_infer := infer; m_known := known; m_hasin := false;
  m_r := Some 1; m_m := Some 0; m_intrusive := false; m_solver := Some (plain_of [[1]]%R [[z]]) |}.
Definition itp_of (c : cls) (e : op) : itp := {| i_cls := c; i_pdim := Some 1; i_params := Some mus0; i_entries := Some [e; e]; i_interp := Some (fun _ => Ok (entries2 e)); i_iclass := Some constC |}.
Definition base0' (l : list pop) : pmodel := {| pm_kind := KContinuous; pm_ops := l; pm_infer := [0]; pm_known := []; pm_hasin := false; pm_r := Some 1; pm_m := Some 0; pm_p := Some 1; pm_s := None;
  pm_intrusive := false; pm_solver := Some new_plain |}.
Definition im0' : imodel := {| im_base := base0' [PItp (itp_of CLin (OLin [[3]]%R))]; im_sub := Some [sub [knw (OLin [[3]]%R)] [0] [] 3; sub [knw (OLin [[3]]%R)] [0] [] 3]; im_params := Some mus0 |}.
Definition lt1 : itp := {| i_cls := CLin; i_pdim := Some 1; i_params := None; i_entries := None; i_interp := None; i_iclass := Some constC |}.
Lemma refit_sub0 z : refit L1 (sub [unk CLin] [0] [] z) = (sub [knw (OLin [[z]])] [0] [] z, Ok tt).
Proof. unfold refit. cbn [m_intrusive m_solver sub]. rewrite solve1. reflexivity. Qed.
Lemma im0_fit : ifit X1 im0 mus0 sts0 lhs0 None = (im0', Ok tt).
Proof. unfold ifit. cbn [pm_intrusive im_base im0 base0].
  assert (E : ifit_solver X1 im0 mus0 sts0 lhs0 None = ({| im_base := base0' [PItp lt1]; im_sub := Some [sub [unk CLin] [0] [] 3; sub [unk CLin] [0] [] 3]; im_params := Some mus0 |}, Ok tt)) by reflexivity.
  rewrite E. unfold irefit. cbn [im_sub im_params refit_all px_l X1]. rewrite !refit_sub0. cbn [im_base base0' pm_ops].
  assert (E2 : reset_ops X1 mus0 [sub [knw (OLin [[3]]%R)] [0] [] 3; sub [knw (OLin [[3]]%R)] [0] [] 3] 0 [PItp lt1] = ([PItp (itp_of CLin (OLin [[3]]%R))], Ok tt)).
  { cbn -[constC]. rewrite constC_two. reflexivity. }
  rewrite E2. reflexivity. Qed.
(* with a known operator: it is subtracted from the data twice *)
Definition kt0 : itp := itp_of CConst (OConst [1]%R).
Lemma kt0_valid : valid_pop (PItp kt0).
Proof. split. { intros _. exists 1, 1. split; [lia|]. split; [lia|]. exists [OConst [1]%R; OConst [1]%R]. eexists. split; [reflexivity|]. split; [discriminate|]. split; [repeat constructor|]. split; [reflexivity|]. intros p E [= <-]. split; repeat constructor. }
  intros C [= <-]. apply constC_faithful. Qed.
Definition base1 (l : list pop) : pmodel := {| pm_kind := KContinuous; pm_ops := l; pm_infer := [1]; pm_known := [0]; pm_hasin := false; pm_r := Some 1; pm_m := Some 0; pm_p := Some 1; pm_s := None;
  pm_intrusive := false; pm_solver := Some new_plain |}.
Definition im1 : imodel := {| im_base := base1 [PItp kt0; PItp lt1]; im_sub := None; im_params := None |}.
Lemma im1_made : imk_model KContinuous [POp (PItp kt0); POp (PItp lt0)] SNone = Ok im1. Proof. reflexivity. Qed.
Lemma refit_sub1 z : refit L1 (sub [knw (OConst [1]%R); unk CLin] [1] [0] z) = (sub [knw (OConst [1]%R); knw (OLin [[z]])] [1] [0] z, Ok tt).
Proof. unfold refit. cbn [m_intrusive m_solver sub]. rewrite solve1. reflexivity. Qed.
Definition im1' : imodel := {| im_base := base1 [PItp kt0; PItp (itp_of CLin (OLin [[3 - 1 - 1]]%R))];
  im_sub := let m := sub [knw (OConst [1]%R); knw (OLin [[3 - 1 - 1]]%R)] [1] [0] (3 - 1 - 1) in Some [m; m]; im_params := Some mus0 |}.
Lemma im1_fit : ifit X1 im1 mus0 sts0 lhs0 None = (im1', Ok tt).
Proof. unfold ifit. cbn [pm_intrusive im_base im1 base1]. set (m := sub [knw (OConst [1]%R); unk CLin] [1] [0] (3 - 1 - 1)).
  assert (E : ifit_solver X1 im1 mus0 sts0 lhs0 None = ({| im_base := base1 [PItp kt0; PItp lt1]; im_sub := Some [m; m]; im_params := Some mus0 |}, Ok tt)) by reflexivity.
  rewrite E. unfold irefit. cbn [im_sub im_params refit_all px_l X1]. unfold m. rewrite !refit_sub1. cbn [im_base base1 pm_ops].
  set (m1 := sub [knw (OConst [1]%R); knw (OLin [[3 - 1 - 1]]%R)] [1] [0] (3 - 1 - 1)).
  assert (E2 : reset_ops X1 mus0 [m1; m1] 0 [PItp kt0; PItp lt1] = ([PItp kt0; PItp (itp_of CLin (OLin [[3 - 1 - 1]]%R))], Ok tt)).
  { cbn -[constC Rminus]. rewrite constC_two. cbn -[constC Rminus]. rewrite constC_two. reflexivity. }
  rewrite E2. reflexivity. Qed.
Lemma known_subtracted_twice : exists X args d mus states lhs d' s m0 m1 e, pext_ok X /\ Forall valid_parg args /\ imk_model KContinuous args SNone = Ok d /\ pm_solver (im_base d) = Some s /\
  fit_args (im_base d) mus states lhs None /\ NoDup mus /\ ifit X d mus states lhs None = (d', Ok tt) /\
  mk_model KContinuous false [AOp (knw (OConst [1]%R)); AOp (unk CLin)] (SObj s) = Ok m0 /\ fit (px_l X) m0 (nth 0 states (V [])) (nth 0 lhs (V [])) None = (m1, Ok tt) /\
  (forall o, nth_error (pm_ops (im_base d)) 0 = Some o -> snd (pop_eval o (nth 0 mus (PS 0))) = Ok (knw (OConst [1]%R))) /\
  snd (pevaluate (im_base d') (nth 0 mus (PS 0))) = Ok e /\ m_ops e <> m_ops m1.
Proof. exists X1, [POp (PItp kt0); POp (PItp lt0)], im1, mus0, sts0, lhs0, im1', new_plain. eexists _, (sub [knw (OConst [1]%R); knw (OLin [[3 - 1]]%R)] [1] [0] (3 - 1)), _.
  split; [exact X1_ok|]. split; [constructor; [apply kt0_valid|constructor; [apply lt0_valid|constructor]]|]. split; [exact im1_made|]. split; [reflexivity|].
  split. { split; [repeat constructor|]. split; [repeat constructor|]. split; [exact I|]. apply Forall_forall. intros mu _ a [K|[K|[]]]; discriminate. }
  split. { constructor; [intros [K|[]]; injection K; lra|]. constructor; [intros []|constructor]. } split; [exact im1_fit|]. split; [reflexivity|]. split.
  { unfold fit. cbn [m_frozen m_intrusive]. match goal with |- context [fit_solver ?a ?b ?c ?d ?e] => replace (fit_solver a b c d e) with (sub [knw (OConst [1]%R); unk CLin] [1] [0] (3 - 1), @Ok unit tt) by reflexivity end. cbn [seqm]. unfold refit. cbn [m_intrusive m_solver sub px_l X1]. rewrite solve1. reflexivity. }
  split. { intros o [= <-]. reflexivity. } split; [reflexivity|]. cbn. intros K. injection K. lra. Qed.

(* a ParametricModel with a known interpolated operator cannot be fitted *)
Lemma set_training_known mus l t : In (PItp t) l -> i_interp t <> None -> forall l' x, set_training mus l = (l', x) -> x <> Ok tt.
Proof. intros Hin Ht. induction l as [|o l IH]; [destruct Hin|]. intros l' x E. destruct Hin as [->|Hin].
  - cbn in E. unfold i_set_params in E. destruct (i_interp t); [|congruence]. injection E as <- <-. discriminate.
  - cbn in E. destruct o as [o|a|t0].
    + destruct (set_training mus l) as [l2 y]. injection E as <- <-. eapply IH; eauto.
    + destruct (set_training mus l) as [l2 y]. injection E as <- <-. eapply IH; eauto.
    + destruct (i_set_params t0 mus); [|injection E as <- <-; discriminate]. destruct (set_training mus l) as [l2 y]. injection E as <- <-. eapply IH; eauto. Qed.
Lemma known_interpolated X d mus states lhs inputs i t d' : pext_ok X -> preach X d -> In i (pm_known d) -> nth_error (pm_ops d) i = Some (PItp t) -> pm_intrusive d = false ->
  pfit X d mus states lhs inputs <> (d', Ok tt).
Proof. intros HX HR Hk Et Hi E. assert (H := preach_inv X d HX HR). unfold pfit in E. rewrite Hi in E. unfold pfit_solver in E. destruct (pprocess d mus states lhs inputs) as [d1 x1] eqn:EP. destruct (pprocess_inv X d mus states lhs inputs d1 x1 HX H EP) as (F1 & S1 & _).
  destruct x1 as [[[Qs Zs] Us]|]; cbn [pseq] in E; [|discriminate]. destruct (set_training mus (pm_ops d1)) as [l x] eqn:ET.
  assert (x <> Ok tt). { destruct (pfr_ops X d d1 F1 i _ Et) as (o' & Eo & S & _). destruct o' as [| |t']; cbn in S; try tauto. eapply set_training_known; [eapply nth_error_In; eauto| |exact ET].
    assert (H1 : pinv X d1). { eapply pframe_inv; eauto. rewrite S1. apply (pi_solver X d H). } destruct (pi_known X d1 H1 i) as (o & r & m & Eo' & _ & _ & HS). { rewrite (pfr_known X d d1 F1). auto. } rewrite Eo in Eo'. injection Eo' as <-. destruct HS as (ops & f & _ & _ & _ & Ef & _). congruence. }
  destruct x as [[]|e]; [congruence|]. cbn [pseq] in E. discriminate. Qed.

(* ---- an affine operator with two terms ---- *)
Definition af (e : option (list op)) : aff := {| a_cls := CLin; a_theta := identity; a_nterms := 2; a_pdim := Some 2; a_entries := e |}.
Lemma af_made : aff_init CLin (CInt 2) None = Ok (af None). Proof. reflexivity. Qed.
Definition pmA (l : list pop) (r s : option nat) (solver : lsq) : pmodel := {| pm_kind := KDiscrete; pm_ops := l; pm_infer := [0]; pm_known := []; pm_hasin := false; pm_r := r; pm_m := Some 0; pm_p := Some 2; pm_s := s;
  pm_intrusive := false; pm_solver := Some solver |}.
Definition pm0 : pmodel := pmA [PAff (af None)] None None new_plain.
Lemma pm0_reach : preach X1 pm0.
Proof. apply (preach_new X1 KDiscrete [POp (PAff (af None))] SNone); [|exact I|reflexivity]. constructor; [|constructor]. split; [cbn; congruence|cbn; lia]. Qed.
Definition musA : list pval := [PV [1; 0]; PV [0; 1]]%R.
Definition lhsA : list arr := [V [3]; V [5]]%R.
Definition pm1 : pmodel := pmA [PAff (af (Some [OLin [[3]]; OLin [[5]]]%R))] (Some 1) (Some 2) (plain_of (eye 2) [[3; 5]]%R).
Lemma argsA : fit_args pm0 musA sts0 lhsA None.
Proof. split; [repeat constructor|]. split; [repeat constructor|]. split; [exact I|]. constructor; [|constructor; [|constructor]]; intros a [[= <-]|[]]; eexists; split; reflexivity. Qed.
Lemma musA_nodup : NoDup musA.
Proof. constructor; [intros [K|[]]; injection K; lra|]. constructor; [intros []|constructor]. Qed.
Lemma pm0_fit : pfit X1 pm0 musA sts0 lhsA None = (pm1, Ok tt).
Proof. unfold pfit. cbn [pm_intrusive pm0 pmA].
  assert (E : pfit_solver X1 pm0 musA sts0 lhsA None = (pmA [PAff (af None)] (Some 1) (Some 2) (plain_of (eye 2) [[3; 5]]%R), Ok tt)).
  { replace (eye 2) with ([[1 * 1; 0 * 1]; [0 * 1; 1 * 1]]%R) by (cbn; repeat f_equal; ring). reflexivity. }
  fold pm0. rewrite E. cbn [pseq]. unfold prefit. cbn [pm_intrusive pm_solver pmA px_l X1]. rewrite plain_eye. reflexivity. Qed.
Lemma pm1_trained : trained_p 1 1 pm1.
Proof. split; [discriminate|]. split; [lia|]. split; [lia|]. constructor; [|constructor]. exists [OLin [[3]]; OLin [[5]]]%R. split; [reflexivity|]. split; [repeat constructor|]. split; cbn; lia. Qed.
Lemma pm1_eval : exists e, snd (pevaluate pm1 (PV [2; 1]%R)) = Ok e /\ m_ops e = [knw (OLin [[2 * 3 + 1 * 5]]%R)].
Proof. eexists. split; reflexivity. Qed.
