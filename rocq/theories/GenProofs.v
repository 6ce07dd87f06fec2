(* GenProofs.v -- models made of operators of any class: what fit() learns. *)
From Coq Require Import ZArith String.
From Verif Require Import LinAlg MatAlg BlockAlg TupleFinal OpsProofs AffProofs PolyOpProofs.
From Verif Require Export MonoFit SpecGen.
#[local] Open Scope nat_scope.
#[local] Open Scope list_scope.

Lemma is_mat_tab2 r c f : is_mat r c (tab2 r c f). Proof. apply is_mat_tab. Qed.
Lemma mget_tab2 r c f i j : i < r -> j < c -> mget (tab2 r c f) i j = f i j. Proof. apply mget_tab. Qed.

(* ---- the operators of a model ------------------------------------------------------------------------------------------- *)
Definition given (a : garg) : bool := match snd a with Some _ => true | None => false end.
Definition made (a : garg) (o : gop) : Prop :=
  go_cls o = fst a /\ go_known o = given a /\ forall E, snd a = Some E -> go_ent o = Some E.
Definition ginit (a : garg) : gop := {| go_cls := fst a; go_ent := snd a; go_known := given a |}.
Record ginv (X : lsx) (args : list garg) (d : gmodel) : Prop := {
  gi_ops : Forall2 made args (gm_ops d);
  gi_hasin : gm_hasin d = existsb (fun a => oc_inputs (fst a)) args;
  gi_solver : forallb given args = false -> exists s, gm_solver d = Some s /\ winv X s }.

Lemma made_inputs args l : Forall2 made args l -> existsb (fun o => oc_inputs (go_cls o)) l = existsb (fun a => oc_inputs (fst a)) args.
Proof. induction 1 as [|a o args l (E & _) H IH]; cbn; auto. rewrite E, IH. reflexivity. Qed.
Lemma made_known args l : Forall2 made args l -> forallb go_known l = forallb given args.
Proof. induction 1 as [|a o args l (_ & E & _) H IH]; cbn; auto. rewrite E, IH. reflexivity. Qed.
Lemma made_init args : Forall2 made args (map ginit args).
Proof. induction args as [|a args IH]; cbn; constructor; auto. split; auto. Qed.
Lemma any_inputs_ex args : any_inputs args <-> existsb (fun a => oc_inputs (fst a)) args = true.
Proof. rewrite existsb_exists. reflexivity. Qed.

Lemma gmk_inv X args s d : (forall s0, s = Some s0 -> fresh_solver (x_lsvd X) s0) -> gmk args s = Ok d -> ginv X args d.
Proof. intros HS E. unfold gmk in E. fold given in E.
  change (map (fun a : ocls * option mat => {| go_cls := fst a; go_ent := snd a; go_known := match snd a with Some _ => true | None => false end |}) args) with (map ginit args) in E.
  destruct (_ =? 0); [discriminate|]. destruct (negb _); [discriminate|].
  destruct (gstate_dim (map ginit args)) as [r|]; [|discriminate]. cbn [bind] in E. destruct (ginput_dim (map ginit args)) as [m|]; [|discriminate].
  cbn [bind] in E. injection E as <-. constructor; cbn.
  - apply made_init.
  - apply made_inputs, made_init.
  - rewrite (made_known args _ (made_init args)). intros ->. eexists. split; [reflexivity|]. destruct s; [apply fresh_winv; auto|apply new_plain_winv]. Qed.

(* _clear leaves the operators as at construction *)
Definition gclear_op (o : gop) : gop := if go_known o then o else {| go_cls := go_cls o; go_ent := None; go_known := false |}.
Lemma clear_made args l : Forall2 made args l -> map gclear_op l = map ginit args.
Proof. induction 1 as [|a o args l (E1 & E2 & E3) H IH]; cbn; auto. rewrite IH. f_equal. unfold gclear_op, ginit. destruct o as [c e k]; cbn in *. subst.
  unfold given in *. destruct (snd a) as [E|]; auto. rewrite (E3 E); auto. Qed.

Lemma forall_one_of x l : Forall (eq x) l -> exists y, one_of l = Ok y /\ (y = None \/ y = Some x).
Proof. intros H. destruct l as [|a l]; [exists None; auto|]. inversion H as [|? ? E0 H']; subst a. exists (Some x). split; auto. cbn.
  assert (forallb (Nat.eqb x) l = true) as ->; auto. apply forallb_forall. rewrite Forall_forall in H'. intros y Hy. apply Nat.eqb_eq. auto. Qed.
Lemma init_rows r m args fs : Forall2 (described r m) args fs -> Forall (eq r) (map nrows (gents (map ginit args))).
Proof. induction 1 as [|a f args fs (_ & H) HF IH]; cbn; auto. unfold gents. cbn [map flat_map ginit go_ent]. destruct (snd a) as [E|]; auto.
  cbn [app map]. constructor; auto. symmetry. apply (is_mat_nrows r (fst f)). auto. Qed.
Lemma init_cols r m args fs : Forall2 (described r m) args fs -> Forall (eq m) (gindims (map ginit args)).
Proof. induction 1 as [|a f args fs (HL & H) HF IH]; cbn; auto. unfold gindims in *. destruct a as [c e]. cbn [map filter ginit go_cls fst snd] in *. destruct (oc_inputs c) eqn:EI; auto.
  cbn [flat_map go_ent ginit snd fst go_cls]. destruct e as [E|]; auto.
  cbn [app]. constructor; auto. symmetry. apply (lw_indim _ _ _ _ HL); auto. Qed.

Lemma gclear_ok X r m args fs d : Forall2 (described r m) args fs -> ginv X args d ->
  exists r0 m0, gclear d = Ok {| gm_ops := map ginit args; gm_hasin := gm_hasin d; gm_r := r0; gm_m := m0; gm_solver := gm_solver d |} /\
    (r0 = None \/ r0 = Some r) /\ (if gm_hasin d then m0 = None \/ m0 = Some m else m0 = Some 0) /\
    gstate_dim (map ginit args) = Ok r0 /\ ginput_dim (map ginit args) = Ok m0.
Proof. intros HF HI. unfold gclear. fold gclear_op.
  change (fun o => if go_known o then o else {| go_cls := go_cls o; go_ent := None; go_known := false |}) with gclear_op.
  rewrite (clear_made args _ (gi_ops _ _ _ HI)). unfold gstate_dim, ginput_dim.
  destruct (forall_one_of r _ (init_rows r m args fs HF)) as (r0 & E1 & H1). destruct (forall_one_of m _ (init_cols r m args fs HF)) as (m0 & E2 & H2).
  rewrite E1. cbn [bind]. rewrite (made_inputs args _ (made_init args)), <- (gi_hasin _ _ _ HI). rewrite E2. destruct (gm_hasin d).
  - exists r0, m0. split; [reflexivity|]. auto.
  - exists r0, (Some 0). split; [reflexivity|]. auto. Qed.

(* ---- the regression problem --------------------------------------------------------------------------------------------- *)
Fixpoint tolearn (args : list garg) (fs : list feature) : list feature :=
  match args, fs with
  | (_, None) :: args', f :: fs' => f :: tolearn args' fs'
  | (_, Some _) :: args', _ :: fs' => tolearn args' fs'
  | _, _ => []
  end.
Fixpoint knownval (args : list garg) (fs : list feature) (q u : vec) (i : nat) : R :=
  match args, fs with
  | (_, None) :: args', _ :: fs' => knownval args' fs' q u i
  | (_, Some E) :: args', f :: fs' => (term f E q u i + knownval args' fs' q u i)%R
  | _, _ => 0%R
  end.
Definition blk (r m k : nat) (Q U : mat) (f : feature) : mat :=
  tab2 k (fst f) (fun j b => vget (snd f (colv r Q j) (colv m U j)) b).
Definition gD (r m k : nat) (Q U : mat) (args : list garg) (fs : list feature) : mat := hstack (map (blk r m k Q U) (tolearn args fs)).
Definition gL (r m k : nat) (Q Z U : mat) (args : list garg) (fs : list feature) : mat :=
  tab2 r k (fun i j => (mget Z i j - knownval args fs (colv r Q j) (colv m U j) i)%R).

Lemma unknowns_tolearn args : forall fs, unknowns args fs = lsumn (map fst (tolearn args fs)).
Proof. induction args as [|[c [E|]] args IH]; intros [|f fs]; cbn [unknowns tolearn]; auto. rewrite IH. reflexivity. Qed.
Lemma tolearn_ne r m args fs : Forall2 (described r m) args fs -> forallb given args = false -> tolearn args fs <> [].
Proof. induction 1 as [|[c [E|]] f args fs H HF IH]; cbn; try discriminate; auto. Qed.
Lemma blks_shape r m k Q U l : blocks k (map fst l) (map (blk r m k Q U) l).
Proof. induction l as [|f l IH]; cbn; constructor; auto. apply is_mat_tab2. Qed.
Lemma tolearn_pos r m args fs : Forall2 (described r m) args fs -> Forall (fun f => 0 < fst f) (tolearn args fs).
Proof. induction 1 as [|[c [E|]] f args fs (H & _) HF IH]; cbn [tolearn]; auto. constructor; auto. apply (lw_pos _ _ _ _ H). Qed.
Lemma unknowns_pos r m args fs : Forall2 (described r m) args fs -> forallb given args = false -> 0 < unknowns args fs.
Proof. intros HF Hn. rewrite unknowns_tolearn. apply lsumn_pos.
  - assert (Hx := tolearn_ne r m args fs HF Hn). destruct (tolearn args fs); [congruence|discriminate].
  - intros x Hx. apply in_map_iff in Hx. destruct Hx as (f & <- & Hf). assert (HP := tolearn_pos r m args fs HF). rewrite Forall_forall in HP. auto. Qed.
Lemma gD_shape r m k Q U args fs : Forall2 (described r m) args fs -> forallb given args = false -> is_mat k (unknowns args fs) (gD r m k Q U args fs).
Proof. intros HF Hn. rewrite unknowns_tolearn. apply is_mat_hstack; [apply blks_shape|].
  assert (Hx := tolearn_ne r m args fs HF Hn). destruct (tolearn args fs); [congruence|discriminate]. Qed.

Lemma gsubtract_ok r m k args fs Q U oU : 0 < r -> 0 < k -> Forall2 (described r m) args fs -> is_mat r k Q -> is_mat m k U ->
  (any_inputs args -> oU = Some (M U)) -> forall L, is_mat r k L ->
  gsubtract (map ginit args) Q oU L = Ok (gL r m k Q L U args fs).
Proof. intros Hr Hk HF HQ HU. induction HF as [|[c [E|]] f args fs (HL & HE) HF IH]; intros Hin L HLm.
  - cbn. f_equal. apply (mat_ext r k); auto. { apply is_mat_tab2. } intros i j Hi Hj. unfold gL. rewrite mget_tab2 by auto. cbn. ring.
  - cbn [map gsubtract ginit go_known given snd go_ent go_cls fst].
    destruct (lw_mat _ _ _ _ HL k E Q U oU Hk (HE E eq_refl) HQ HU) as (Y & EY & HY & Hv).
    { intros Hx. apply Hin. exists (c, Some E). split; [left; auto|auto]. }
    cbn [fst] in EY. rewrite EY. cbn [bind]. unfold shape_is.
    rewrite (is_mat_nrows _ _ _ HLm), (is_mat_nrows _ _ _ HY), (ncols_is_mat _ _ _ HLm Hr), (ncols_is_mat _ _ _ HY Hr), !Nat.eqb_refl. cbn [andb].
    rewrite IH; [|intros (a & Ha & Hb); apply Hin; exists a; split; [right; auto|auto]|apply is_mat_msub; auto].
    f_equal. apply (mat_ext r k); try apply is_mat_tab2. intros i j Hi Hj. unfold gL. rewrite !mget_tab2 by auto. rewrite (mget_msub r k) by auto. rewrite Hv by auto.
    cbn [knownval]. ring.
  - cbn [map gsubtract ginit go_known given snd]. rewrite IH; auto. intros (a & Ha & Hb); apply Hin; exists a; split; [right; auto|auto]. Qed.

Lemma mapM_blocks r m k args fs Q U oU : 0 < k -> Forall2 (described r m) args fs -> is_mat r k Q -> is_mat m k U ->
  (any_inputs args -> oU = Some (M U)) ->
  mapM (fun o => do B <- oc_block (go_cls o) Q oU; Ok (mT B)) (to_infer (map ginit args)) = Ok (map (blk r m k Q U) (tolearn args fs)).
Proof. intros Hk HF HQ HU. induction HF as [|[c [E|]] f args fs (HL & HE) HF IH]; intros Hin; auto.
  - apply IH. intros (a & Ha & Hb); apply Hin; exists a; split; [right; auto|auto].
  - unfold to_infer. cbn [map filter ginit go_known given snd negb mapM go_cls fst tolearn].
    destruct (lw_block _ _ _ _ HL k Q U oU Hk HQ HU) as (B & EB & HB & Hv).
    { intros Hx. apply Hin. exists (c, None). split; [left; auto|auto]. }
    cbn [fst] in EB. rewrite EB. cbn [bind].
    assert (E1 : mT B = blk r m k Q U f).
    { assert (Hp := lw_pos _ _ _ _ HL). apply (mat_ext k (fst f)); [apply is_mat_mT; auto|apply is_mat_tab2|].
      intros j b Hj Hb. rewrite (mget_mT (fst f) k) by auto. unfold blk. rewrite mget_tab2 by auto. apply Hv; auto. }
    rewrite E1. unfold to_infer in IH. rewrite IH; auto. intros (a & Ha & Hb); apply Hin; exists a; split; [right; auto|auto]. Qed.

(* ---- what is written into the operators --------------------------------------------------------------------------------- *)
Fixpoint place (args : list garg) (fs : list feature) (O : mat) (idx : nat) : list mat :=
  match args, fs with
  | (_, None) :: args', f :: fs' => mcols idx (idx + fst f) O :: place args' fs' O (idx + fst f)
  | (_, Some E) :: args', _ :: fs' => E :: place args' fs' O idx
  | _, _ => []
  end.
Fixpoint gfill (args : list garg) (Es : list mat) : list gop :=
  match args, Es with
  | a :: args', E :: Es' => {| go_cls := fst a; go_ent := Some E; go_known := given a |} :: gfill args' Es'
  | _, _ => []
  end.

Lemma gextract_ok r m mm args fs O W : is_mat r W O -> Forall2 (described r m) args fs -> (any_inputs args -> mm = Some m) ->
  forall l idx, Forall2 made args l -> idx + unknowns args fs <= W -> gextract r mm O idx l = Ok (gfill args (place args fs O idx)).
Proof. intros HO HF. induction HF as [|a f args fs (HL & HE) HF IH]; intros Hin l idx HM HW; inversion HM as [|? o ? l' (E1 & E2 & E3) HM']; subst; auto.
  assert (Hin' : any_inputs args -> mm = Some m). { intros (a0 & Ha & Hb); apply Hin; exists a0; split; [right; auto|auto]. }
  destruct o as [c e kn]. cbn in E1, E2, E3. subst. destruct a as [c [E|]]; cbn [gextract given snd go_known fst] in *.
  - rewrite (IH Hin' l' idx) by auto. cbn [bind]. rewrite (E3 E) by auto. reflexivity.
  - cbn [unknowns] in HW. cbn [go_cls]. rewrite (lw_dim _ _ _ _ HL). 2:{ intros Hx. apply Hin. exists (c, None). split; [left; auto|auto]. }
    cbn [bind]. assert (HC := is_mat_mcols r W idx (idx + fst f) O HO ltac:(lia) ltac:(lia)). rewrite Nat.add_comm, Nat.add_sub in HC.
    rewrite (Nat.add_comm (fst f) idx) in HC. rewrite (lw_set _ _ _ _ HL) by auto. cbn [bind]. rewrite (IH Hin' l') by (auto; lia). reflexivity. Qed.
Lemma place_valued r m W O : is_mat r W O -> forall args fs, Forall2 (described r m) args fs -> forall idx, idx + unknowns args fs <= W ->
  valued r args fs (place args fs O idx).
Proof. intros HO. induction 1 as [|[c [E|]] f args fs (HL & HE) HF IH]; intros idx HW; cbn; auto.
  - split; [apply HE; auto|]. split; [cbn; congruence|]. apply IH. auto.
  - cbn [unknowns] in HW. split; [|split; [discriminate|apply IH; lia]].
    assert (HC := is_mat_mcols r W idx (idx + fst f) O HO ltac:(lia) ltac:(lia)). rewrite Nat.add_comm, Nat.add_sub in HC. rewrite (Nat.add_comm (fst f) idx) in HC. auto. Qed.
Lemma learned_blocks r args : forall fs Es, valued r args fs Es -> blocks r (map fst (tolearn args fs)) (learned args Es).
Proof. induction args as [|[c [E|]] args IH]; intros [|f fs] [|E' Es] H; cbn in H; try tauto; cbn [tolearn learned map].
  - constructor.
  - apply IH. tauto.
  - constructor; [tauto|]. apply IH. tauto. Qed.
Lemma learned_ne r args : forall fs Es, valued r args fs Es -> tolearn args fs <> [] -> learned args Es <> [].
Proof. intros fs Es HV Hn. assert (HB := learned_blocks r args fs Es HV). inversion HB; [|discriminate]. destruct (tolearn args fs); [congruence|discriminate]. Qed.
Lemma learned_shape r m args fs Es : Forall2 (described r m) args fs -> forallb given args = false -> valued r args fs Es ->
  is_mat r (unknowns args fs) (hstack (learned args Es)).
Proof. intros HF Hn HV. rewrite unknowns_tolearn. apply is_mat_hstack; [apply learned_blocks; auto|]. eapply learned_ne; eauto. eapply tolearn_ne; eauto. Qed.

Lemma place_learned r m W O : is_mat r W O -> 0 < r -> forall args fs, Forall2 (described r m) args fs -> forall idx,
  tolearn args fs <> [] -> idx + unknowns args fs <= W -> hstack (learned args (place args fs O idx)) = mcols idx (idx + unknowns args fs) O.
Proof. intros HO Hr. induction 1 as [|[c [E|]] f args fs (HL & HE) HF IH]; intros idx Hn HW; cbn [tolearn learned place unknowns] in *; [congruence| |].
  - apply IH; auto.
  - destruct (tolearn args fs) as [|f2 l2] eqn:ET.
    + assert (unknowns args fs = 0) as E0 by (rewrite unknowns_tolearn, ET; reflexivity).
      assert (learned args (place args fs O (idx + fst f)) = []) as ->.
      { assert (HB := learned_blocks r args fs _ (place_valued r m W O HO args fs HF (idx + fst f) ltac:(lia))). rewrite ET in HB. inversion HB. auto. }
      rewrite hstack_one, E0, Nat.add_0_r. reflexivity.
    + rewrite <- ET in Hn. assert (HV := place_valued r m W O HO args fs HF (idx + fst f) ltac:(lia)).
      assert (HC := is_mat_mcols r W idx (idx + fst f) O HO ltac:(lia) ltac:(lia)). 
      rewrite (hstack_step r _ _ _ _ HC (learned_blocks r args fs _ HV)). 2:{ eapply learned_ne; eauto. rewrite ET. discriminate. }
      rewrite IH by (auto; try lia; discriminate). rewrite (hcat_mcols r W) by (auto; lia). f_equal. lia. Qed.

(* row j of the data matrix times row i of the operator matrix, plus the known operators, is the value of the model *)
Lemma gdot r m k Q U i j : i < r -> j < k -> forall args fs Es, Forall2 (described r m) args fs -> valued r args fs Es -> tolearn args fs <> [] ->
  (bsum (unknowns args fs) (fun l => (mget (gD r m k Q U args fs) j l * mget (hstack (learned args Es)) i l)%R) +
   knownval args fs (colv r Q j) (colv m U j) i = value fs Es (colv r Q j) (colv m U j) i)%R.
Proof. intros Hi Hj args fs Es HF. revert Es. induction HF as [|[c [E|]] f args fs (HL & HE) HF IH]; intros [|E' Es] HV Hn; cbn [valued] in HV; try tauto;
  cbn [tolearn learned unknowns value knownval] in *.
  - destruct HV as (HV1 & HV2 & HV). rewrite (HV2 E eq_refl). rewrite <- (IH Es HV Hn). unfold gD. cbn [tolearn]. ring.
  - destruct HV as (HV1 & _ & HV).
    assert (T : bsum (fst f) (fun l => (mget (blk r m k Q U f) j l * mget E' i l)%R) = term f E' (colv r Q j) (colv m U j) i).
    { apply bsum_ext. intros b Hb. unfold blk. rewrite mget_tab2 by auto. apply Rmult_comm. }
    unfold gD. cbn [tolearn map]. destruct (tolearn args fs) as [|f2 l2] eqn:ET.
    + assert (unknowns args fs = 0) as E0 by (rewrite unknowns_tolearn, ET; reflexivity).
      assert (HB := learned_blocks r args fs Es HV). rewrite ET in HB. inversion HB as [HB1|]. cbn [map]. rewrite !hstack_one, E0, Nat.add_0_r, T. f_equal.
      clear - HF HV ET. revert Es HV ET. induction HF as [|[c [E|]] f args fs H HF IH]; intros [|E' Es] HV ET; cbn [valued] in HV; try tauto; cbn [tolearn knownval value] in *; [|discriminate].
      destruct HV as (_ & HV2 & HV). rewrite (HV2 E eq_refl). f_equal. apply IH; auto.
    + assert (HT : tolearn args fs <> []) by (rewrite ET; discriminate). rewrite <- ET. rewrite <- ET in IH. assert (HB := learned_blocks r args fs Es HV).
      assert (IH2 := IH Es HV HT). unfold gD in IH2.
      assert (HBD := blks_shape r m k Q U (tolearn args fs)).
      assert (HND : map (blk r m k Q U) (tolearn args fs) <> []) by (destruct (tolearn args fs); [congruence|discriminate]).
      assert (HNL : learned args Es <> []) by (apply (learned_ne r args fs); auto).
      assert (HBK : is_mat k (fst f) (blk r m k Q U f)) by apply is_mat_tab2. rewrite (hstack_step k (fst f) _ _ _ HBK HBD HND). rewrite (hstack_step r (fst f) _ _ _ HV1 HB HNL).
      assert (H1 := is_mat_hstack k _ _ HBD HND). assert (H2 := is_mat_hstack r _ _ HB HNL). rewrite <- unknowns_tolearn in H1, H2.
      rewrite bsum_split, <- T, <- IH2. rewrite <- Rplus_assoc. f_equal. f_equal; apply bsum_ext; intros b Hb;
      rewrite (mget_hcat k (fst f) (unknowns args fs)), (mget_hcat r (fst f) (unknowns args fs)) by (auto; apply is_mat_tab2).
      * destruct (Nat.ltb_spec b (fst f)); [auto|lia].
      * destruct (Nat.ltb_spec (fst f + b) (fst f)); [lia|]. rewrite !(Nat.add_comm (fst f)), !Nat.add_sub. auto. Qed.

(* ---- fit() ------------------------------------------------------------------------------------------------------------------ *)
Definition gready (args : list garg) (d : gmodel) (r m : nat) : gmodel :=
  {| gm_ops := map ginit args; gm_hasin := gm_hasin d; gm_r := Some r; gm_m := Some (if gm_hasin d then m else 0); gm_solver := gm_solver d |}.
Lemma forallb_eqb r l : Forall (eq r) l -> forallb (fun n => n =? r) l = true.
Proof. rewrite Forall_forall. intros H. apply forallb_forall. intros x Hx. apply Nat.eqb_eq. symmetry. auto. Qed.
Lemma forallb_map' {A B} (p : B -> bool) (f : A -> B) l : forallb p (map f l) = forallb (fun x => p (f x)) l.
Proof. induction l; cbn; auto. rewrite IHl. reflexivity. Qed.
Lemma one_of_none l : one_of l = Ok None -> l = [].
Proof. destruct l; cbn; auto. destruct (forallb _ _); discriminate. Qed.

Lemma gprocess_ok X r m k args fs d states lhs inputs Q Z U : 0 < r -> 0 < m -> Forall2 (described r m) args fs -> ginv X args d ->
  data r m k args states lhs inputs Q Z U -> exists oU, (any_inputs args -> oU = Some (M U)) /\
  gprocess d states lhs inputs = Ok (gready args d r m, Q, gL r m k Q Z U args fs, oU).
Proof. intros Hr Hm HF HI [Hk [EQ HQ] [EZ HZ] HU Hin]. unfold gprocess.
  destruct (gclear_ok X r m args fs d HF HI) as (r0 & m0 & EC & Hr0 & Hm0 & _ & _). rewrite EC. cbn [bind gm_r gm_m gm_hasin]. rewrite EQ, EZ.
  rewrite (is_mat_nrows _ _ _ HQ), (is_mat_nrows _ _ _ HZ), (ncols_is_mat _ _ _ HQ Hr), (ncols_is_mat _ _ _ HZ Hr).
  set (d1 := {| gm_ops := map ginit args; gm_hasin := gm_hasin d; gm_r := Some r; gm_m := m0; gm_solver := gm_solver d |}).
  assert (E2 : (do d2 <- match r0 with None => gset_r r {| gm_ops := map ginit args; gm_hasin := gm_hasin d; gm_r := r0; gm_m := m0; gm_solver := gm_solver d |} | Some _ =>
      Ok {| gm_ops := map ginit args; gm_hasin := gm_hasin d; gm_r := r0; gm_m := m0; gm_solver := gm_solver d |} end; Ok d2) = Ok d1).
  { destruct Hr0 as [-> | ->]; auto. unfold gset_r. cbn [gm_ops]. rewrite <- (forallb_map' (fun n => n =? r) nrows). rewrite (forallb_eqb r) by (eapply init_rows; eauto). reflexivity. }
  destruct (match r0 with None => _ | Some _ => _ end) as [d2|]; [|discriminate]. cbn [bind] in *. injection E2 as ->. unfold is_dim, d1 at 1 2. cbn [gm_r].
  rewrite !Nat.eqb_refl. cbn [negb]. assert (HH := gi_hasin _ _ _ HI). unfold d1 at 1. cbn [gm_hasin]. destruct (gm_hasin d) eqn:EH.
  - destruct (Hin) as (u & -> & EU). { apply any_inputs_ex. auto. } rewrite EU. rewrite (is_mat_nrows _ _ _ HU), (ncols_is_mat _ _ _ HU Hm).
    exists (Some (M U)). split; auto.
    assert (E3 : match gm_m d1 with None | Some 0 => gset_m m d1 | Some _ => Ok d1 end = Ok (gready args d r m)).
    { unfold d1, gready. cbn [gm_m]. rewrite ?EH. destruct Hm0 as [-> | ->].
      - unfold gset_m. cbn [gm_hasin gm_ops]. rewrite ?EH. cbn [negb andb]. rewrite (forallb_eqb m) by (eapply init_cols; eauto). reflexivity.
      - destruct m; [lia|]. reflexivity. }
    rewrite E3. cbn [bind]. unfold gready at 1. cbn [gm_m]. rewrite ?EH, !Nat.eqb_refl. cbn [negb bind fst snd gready gm_ops].
    rewrite (gsubtract_ok r m k args fs Q U) by auto. reflexivity.
  - exists inputs. assert (Hno : any_inputs args -> inputs = Some (M U)). { intros Hx. apply any_inputs_ex in Hx. congruence. }
    split; auto. cbn [bind fst snd]. unfold d1. cbn [gm_ops]. rewrite (gsubtract_ok r m k args fs Q U) by auto. cbn [bind]. unfold gready. rewrite ?EH, Hm0. reflexivity. Qed.

Definition gdone (args : list garg) (d : gmodel) (r m : nat) (s : lsq) (Es : list mat) : gmodel :=
  {| gm_ops := gfill args Es; gm_hasin := gm_hasin d; gm_r := Some r; gm_m := Some (if gm_hasin d then m else 0); gm_solver := Some s |}.
Lemma gin_m X args d m : ginv X args d -> any_inputs args -> Some (if gm_hasin d then m else 0) = Some m.
Proof. intros HI Hx. apply any_inputs_ex in Hx. rewrite <- (gi_hasin _ _ _ HI) in Hx. rewrite Hx. reflexivity. Qed.

(* a model whose solver holds the regression problem (D, L) of the data *)
Record gfitted (X : lsx) (r m k : nat) (args : list garg) (fs : list feature) (Q Z U : mat) (d : gmodel) : Prop := {
  gf_inv : ginv X args d;
  gf_r : gm_r d = Some r;
  gf_m : gm_m d = Some (if gm_hasin d then m else 0);
  gf_solver : exists s, gm_solver d = Some s /\ winv X s /\ clean X s (gD r m k Q U args fs) (gL r m k Q Z U args fs) }.

Lemma gD_dims r m k Q U args fs : 0 < k -> Forall2 (described r m) args fs -> forallb given args = false ->
  nrows (gD r m k Q U args fs) = k /\ ncols (gD r m k Q U args fs) = unknowns args fs.
Proof. intros Hk HF Hn. assert (H := gD_shape r m k Q U args fs HF Hn). split; [apply (is_mat_nrows _ _ _ H)|apply (ncols_is_mat _ _ _ H Hk)]. Qed.
Lemma gL_dims r m k Q Z U args fs : nrows (gL r m k Q Z U args fs) = r.
Proof. apply (is_mat_nrows r k), is_mat_tab2. Qed.

Lemma grefit_eq X r m k args fs Q Z U d : lsx_ok X -> 0 < r -> 0 < k -> Forall2 (described r m) args fs -> forallb given args = false ->
  gfitted X r m k args fs Q Z U d -> exists s, gm_solver d = Some s /\ (forall O, lsq_solve X s = Ok O -> is_mat r (unknowns args fs) O) /\
  grefit X d = do O <- lsq_solve X s; Ok (gdone args d r m s (place args fs O 0)).
Proof. intros HX Hr Hk HF Hn H. destruct (gf_solver _ _ _ _ _ _ _ _ _ _ H) as (s & Es & HW & HC). exists s. split; auto.
  destruct (gD_dims r m k Q U args fs Hk HF Hn) as [ED1 ED2].
  assert (HO : forall O, lsq_solve X s = Ok O -> is_mat r (unknowns args fs) O).
  { intros O EO. destruct (lsq_solve_clean X s _ _ O HX HC EO) as [HO _]. rewrite ED2, gL_dims in HO. auto. }
  split; auto. unfold grefit, gintrusive. rewrite (made_known args _ (gi_ops _ _ _ (gf_inv _ _ _ _ _ _ _ _ _ _ H))), Hn.
  rewrite Es, (gf_r _ _ _ _ _ _ _ _ _ _ H), (gf_m _ _ _ _ _ _ _ _ _ _ H). destruct (lsq_solve X s) as [O|] eqn:EO; auto. cbn [bind].
  rewrite (gextract_ok r m _ args fs O (unknowns args fs)); auto.
  - cbn [bind]. unfold gwith_ops, gdone. rewrite (gf_r _ _ _ _ _ _ _ _ _ _ H), (gf_m _ _ _ _ _ _ _ _ _ _ H), Es. reflexivity.
  - apply (gin_m X). apply (gf_inv _ _ _ _ _ _ _ _ _ _ H).
  - apply (gf_inv _ _ _ _ _ _ _ _ _ _ H). Qed.

Lemma ready_fitted X r m k args fs Q Z U d s' : ginv X args d -> winv X s' -> clean X s' (gD r m k Q U args fs) (gL r m k Q Z U args fs) ->
  gfitted X r m k args fs Q Z U (gwith_solver s' (gready args d r m)).
Proof. intros HI HW HC. constructor; cbn; auto.
  - constructor; cbn; [apply made_init|apply (gi_hasin _ _ _ HI)|eauto].
  - eauto. Qed.

Lemma gfit_eq X r m k args fs d states lhs inputs Q Z U : lsx_ok X -> 0 < r -> 0 < m -> Forall2 (described r m) args fs -> forallb given args = false ->
  ginv X args d -> data r m k args states lhs inputs Q Z U -> exists s, gm_solver d = Some s /\ winv X s /\
  gfit X d states lhs inputs =
    let '(s', x) := lsq_fit X s (M (gD r m k Q U args fs)) (M (gL r m k Q Z U args fs)) in
    do _ <- x; do O <- lsq_solve X s'; Ok (gdone args d r m s' (place args fs O 0)).
Proof. intros HX Hr Hm HF Hn HI HD. destruct (gi_solver _ _ _ HI Hn) as (s & Es & HW). exists s. split; auto. split; auto.
  unfold gfit, gintrusive. rewrite (made_known args _ (gi_ops _ _ _ HI)), Hn.
  destruct (gprocess_ok X r m k args fs d states lhs inputs Q Z U Hr Hm HF HI HD) as (oU & HoU & EP). rewrite EP. cbn [bind].
  destruct HD as [Hk [_ HQ] [_ HZ] HU Hin].
  unfold gassemble. cbn [gready gm_ops gm_solver]. rewrite (mapM_blocks r m k args fs Q U oU) by auto. cbn [bind].
  assert (HT := tolearn_ne r m args fs HF Hn). destruct (map (blk r m k Q U) (tolearn args fs)) as [|b0 bs] eqn:EB.
  { destruct (tolearn args fs); [congruence|discriminate]. }
  cbn [bind]. rewrite Es. replace (hstack (b0 :: bs)) with (gD r m k Q U args fs) by (unfold gD; rewrite EB; reflexivity).
  destruct (lsq_fit X s (M (gD r m k Q U args fs)) (M (gL r m k Q Z U args fs))) as [s' x] eqn:EF. destruct x as [[]|]; auto. cbn [bind].
  assert (GD : good_arr (M (gD r m k Q U args fs))). { exists k, (unknowns args fs). split; auto. split; [eapply unknowns_pos; eauto|apply gD_shape; auto]. }
  assert (GL : good_arr (M (gL r m k Q Z U args fs))). { exists r, k. split; auto. split; auto. apply is_mat_tab2. }
  destruct (lsq_fit_clean X s _ _ s' HX HW GD GL EF) as (D & ED & HC & _). injection ED as <-. cbn [atleast_2d] in HC.
  assert (W' := lsq_fit_winv X s _ _ HW GD GL). rewrite EF in W'. cbn [fst] in W'.
  destruct (grefit_eq X r m k args fs Q Z U (gwith_solver s' (gready args d r m)) HX Hr Hk HF Hn (ready_fitted X r m k args fs Q Z U d s' HI W' HC)) as (s2 & E2 & _ & ER).
  cbn in E2. injection E2 as <-. fold (gready args d r m). rewrite ER. destruct (lsq_solve X s'); auto. Qed.

(* ---- what holds throughout ---------------------------------------------------------------------------------------------- *)
Lemma made_fill r args : forall fs Es, valued r args fs Es -> Forall2 made args (gfill args Es).
Proof. induction args as [|a args IH]; intros [|f fs] [|E Es] H; cbn in H; try tauto; cbn; constructor.
  - split; auto. split; auto. cbn. intros E0 HE. destruct H as (_ & H & _). rewrite (H E0 HE). reflexivity.
  - destruct H as (_ & _ & H). apply (IH fs); auto. Qed.
Lemma gdone_fitted X r m k args fs Q Z U d s Es : ginv X args d -> winv X s -> clean X s (gD r m k Q U args fs) (gL r m k Q Z U args fs) ->
  valued r args fs Es -> gfitted X r m k args fs Q Z U (gdone args d r m s Es).
Proof. intros HI HW HC HV. constructor; cbn; auto.
  - constructor; cbn; [eapply made_fill; eauto|apply (gi_hasin _ _ _ HI)|eauto].
  - eauto. Qed.
Lemma gfit_fitted X r m k args fs d states lhs inputs Q Z U d' : lsx_ok X -> 0 < r -> 0 < m -> Forall2 (described r m) args fs -> forallb given args = false ->
  ginv X args d -> data r m k args states lhs inputs Q Z U -> gfit X d states lhs inputs = Ok d' ->
  exists s' O, gfitted X r m k args fs Q Z U d' /\ d' = gdone args d r m s' (place args fs O 0) /\ gm_solver d' = Some s' /\ lsq_solve X s' = Ok O /\
    is_mat r (unknowns args fs) O /\ forall s w, gm_solver d = Some s -> penalty s' w = penalty s w.
Proof. intros HX Hr Hm HF Hn HI HD E. destruct (gfit_eq X r m k args fs d states lhs inputs Q Z U HX Hr Hm HF Hn HI HD) as (s & Es & HW & EF).
  rewrite EF in E. clear EF. destruct (lsq_fit X s _ _) as [s' x] eqn:EF. destruct x as [[]|]; [|discriminate]. cbn [bind] in E.
  destruct (lsq_solve X s') as [O|] eqn:EO; [|discriminate]. cbn [bind] in E. injection E as <-.
  destruct HD as [Hk [_ HQ] [_ HZ] HU Hin].
  assert (GD : good_arr (M (gD r m k Q U args fs))). { exists k, (unknowns args fs). split; auto. split; [eapply unknowns_pos; eauto|apply gD_shape; auto]. }
  assert (GL : good_arr (M (gL r m k Q Z U args fs))). { exists r, k. split; auto. split; auto. apply is_mat_tab2. }
  destruct (lsq_fit_clean X s _ _ s' HX HW GD GL EF) as (D & ED & HC & HP). injection ED as <-. cbn [atleast_2d] in HC.
  assert (W' := lsq_fit_winv X s _ _ HW GD GL). rewrite EF in W'. cbn [fst] in W'.
  assert (HO : is_mat r (unknowns args fs) O).
  { destruct (lsq_solve_clean X s' _ _ O HX HC EO) as [HO _]. destruct (gD_dims r m k Q U args fs Hk HF Hn) as [_ ED2]. rewrite ED2, gL_dims in HO. auto. }
  exists s', O. split; [|split; [reflexivity|split; [reflexivity|split; [auto|split; [auto|]]]]].
  - apply gdone_fitted; auto. apply (place_valued r m (unknowns args fs)); auto.
  - intros s0 w E0. assert (s0 = s) as -> by congruence. apply HP. Qed.
Lemma gextract_made r mm O args : forall l idx l', Forall2 made args l -> gextract r mm O idx l = Ok l' -> Forall2 made args l'.
Proof. intros l idx l' HF. revert idx l'. induction HF as [|a o args l (E1 & E2 & E3) HF IH]; intros idx l' E; cbn [gextract] in E.
  - injection E as <-. constructor.
  - destruct (go_known o) eqn:EK.
    + destruct (gextract r mm O idx l) as [t|] eqn:ET; [|discriminate]. injection E as <-. constructor; [split; auto|eauto]. split; auto. congruence.
    + destruct (oc_dim (go_cls o) r mm) as [w|]; [|discriminate]. cbn [bind] in E. destruct (oc_set _ _) as [E0|]; [|discriminate]. cbn [bind] in E.
      destruct (gextract r mm O (idx + w) l) as [t|] eqn:ET; [|discriminate]. injection E as <-. constructor; [|eauto]. split; auto. split; [cbn; congruence|].
      intros E4 HE. unfold given in E2. rewrite HE in E2. congruence. Qed.
Lemma greach_inv X r m args fs d : lsx_ok X -> 0 < r -> 0 < m -> Forall2 (described r m) args fs -> greach X r m args d -> ginv X args d.
Proof. intros HX Hr Hm HF. induction 1 as [s d HS E|d k states lhs inputs Q Z U d' H IH HD E|d g d' H IH HG E|d d' H IH E].
  - eapply gmk_inv; eauto.
  - destruct (forallb given args) eqn:EK.
    + unfold gfit, gintrusive in E. rewrite (made_known args _ (gi_ops _ _ _ IH)), EK in E. injection E as <-. auto.
    + destruct (gfit_fitted X r m k args fs d states lhs inputs Q Z U d' HX Hr Hm HF EK IH HD E) as (s' & O & HFd & _). apply HFd.
  - unfold gset_regularizer in E. destruct (gm_solver d) as [s|] eqn:Es; [|discriminate]. destruct (lsq_setreg s g) as [s' x] eqn:EG. destruct x as [[]|]; [|discriminate].
    injection E as <-. destruct IH as [I1 I2 I3]. constructor; cbn; auto. intros Hn. exists s'. split; auto. destruct (I3 Hn) as (s0 & E0 & HW). assert (s0 = s) as -> by congruence.
    assert (Hx := lsq_setreg_winv X s g HW HG). rewrite EG in Hx. exact Hx.
  - unfold grefit in E. destruct (gintrusive d); [injection E as <-; auto|]. destruct (gm_solver d) as [s|] eqn:Es; [|discriminate]. destruct (gm_r d) as [r0|]; [|discriminate].
    destruct (lsq_solve X s) as [O|]; [|discriminate]. cbn [bind] in E. destruct (gextract _ _ _ _ _) as [l|] eqn:EX; [|discriminate]. injection E as <-.
    destruct IH as [I1 I2 I3]. constructor; cbn; auto. eapply gextract_made; eauto. Qed.
