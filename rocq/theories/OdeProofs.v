(* OdeProofs.v -- ContinuousModel.predict. *)
From Coq Require Import ZArith Reals Lra Lia.
From Verif Require Import TupleFinal OpsProofs MonoStmts RomProofs RomParts RomFit.
From Verif Require Export OdeUnique.
#[local] Open Scope nat_scope.

Lemma last_vget ts (t0 : R) : ts <> [] -> last ts t0 = vget ts (length ts - 1).
Proof. intros H. induction ts as [|a ts IH]; [tauto|]. destruct ts as [|b ts]; [reflexivity|]. change (last (a :: b :: ts) t0) with (last (b :: ts) t0). rewrite IH by discriminate. cbn [length]. replace (S (S (length ts)) - 1) with (S (length ts)) by lia.
  replace (S (length ts) - 1) with (length ts) by lia. reflexivity. Qed.
Lemma domain_le ts a b : time_domain ts a b -> (a <= b)%R /\ forall j, j < length ts -> (a <= vget ts j <= b)%R.
Proof. intros (Hn & <- & <- & H). destruct ts as [|t0 ts]; [tauto|]. set (l := t0 :: ts) in *. assert (Hl : 0 < length l) by (cbn; lia).
  assert (HM : forall i j, i <= j -> j < length l -> (vget l i <= vget l j)%R). { intros i j Hij Hj. destruct (Nat.eq_dec i j) as [->|Hne]; [lra|]. left. apply H; lia. }
  split; [apply HM; lia|]. intros j Hj. split; apply HM; lia. Qed.

Section ode.
  Variables (spline : vec -> mat -> res (R -> vec)) (junk : nat -> vec).

  (* the velocity the model computes *)
  Lemma rhs_velocity X d r q u : SpecMono.trained X d r -> is_vec r q -> input_for d u -> exists v, rhs d (V q) (option_map V u) = Ok (V v) /\ velocity d r q u v.
  Proof. intros HT Hq HU. destruct (C29_sum X d r q u HT Hq HU) as (ys & y & HF & E & Hy & Hs). exists y. split; auto. split; auto. exists ys. auto. Qed.
  Lemma velocity_fun d r q u v w : velocity d r q u v -> velocity d r q u w -> v = w.
  Proof. intros (Hv & ys & H & E) (Hw & zs & H' & E'). apply (vec_ext r); auto. intros i Hi. rewrite E, E' by auto. assert (HE : ys = zs); [|subst; reflexivity].
    clear -H H'. revert zs H'. induction H as [|o y l ys (A & _) H IH]; intros zs H'; inversion H'; subst; auto. destruct H2 as (A' & _). rewrite A in A'. injection A' as ->. f_equal. auto. Qed.

  (* the input function the model reads *)
  Lemma read_signal X d r ts a b inputs U : SpecMono.trained X d r -> spline_ok spline -> time_domain ts a b -> signal spline d ts a b inputs U ->
    exists g, read_inputs spline d ts inputs = Ok g /\ forall t, (a <= t <= b)%R -> cont_input d t g = Ok (option_map V (U t)).
  Proof. intros HT HS HD HU. destruct (tr_inv X d r HT) as (HM & HC & _). destruct (trained_dims X d HM HC) as (r' & m' & _ & Hm0 & _ & Em' & _ & _). destruct (domain_le ts a b HD) as (Hab & _). destruct HD as (Hn & Ea & Eb & _). unfold signal in HU. unfold read_inputs, cont_input. destruct (m_hasin d) eqn:Eh; cbn [negb].
    2:{ exists None. split; auto. intros t _. rewrite HU. reflexivity. }
    destruct HU as (m & Em & HU). assert (m' = m) as -> by (specialize (Em' eq_refl); congruence). rewrite Em. destruct ts as [|t0 ts]; [tauto|]. cbn [vget nth] in Ea. subst t0. destruct inputs as [[u|[f|f]]|]; [| | |tauto].
    - destruct HU as (Hm & g & Eg & Hg). rewrite (is_mat_nrows _ _ _ Hm), Nat.eqb_refl. cbn [andb].
      destruct (HS _ m _ g Hm Eg) as (Hgm & _).
      rewrite (ncols_is_mat _ _ _ Hm), Nat.eqb_refl, Eg by auto. cbn [bind check_infunc]. specialize (Hgm a) as Hga. unfold is_vec in Hga. rewrite Hga, Nat.eqb_refl. cbn [bind].
      eexists. split; [reflexivity|]. intros t Ht. cbn beta iota. rewrite Hg by auto. reflexivity.
    - destruct HU as (-> & HU). cbn [bind check_infunc Nat.eqb]. eexists. split; [reflexivity|]. intros t Ht. rewrite HU by auto. reflexivity.
    - destruct (HU a) as (u & Ef & Hu & _); [lra|]. cbn [bind check_infunc]. rewrite Ef. unfold is_vec in Hu. rewrite Hu, Nat.eqb_refl. cbn [bind]. eexists. split; [reflexivity|].
      intros t Ht. destruct (HU t Ht) as (w & Ew & _ & ->). rewrite Ew. reflexivity. Qed.

  Lemma signal_input X d r ts a b inputs U : SpecMono.trained X d r -> spline_ok spline -> signal spline d ts a b inputs U -> forall t, (a <= t <= b)%R -> input_for d (U t).
  Proof. intros HT HS HU t Ht Eh. unfold signal in HU. rewrite Eh in HU. destruct HU as (m & Em & HU). exists m. destruct inputs as [[u|[f|f]]|]; [| | |tauto].
    - destruct HU as (Hm & g & Eg & Hg). exists (g t). split; auto. split; auto. apply (HS _ _ _ _ Hm Eg).
    - destruct HU as (-> & HU). exists [f t]. auto.
    - destruct (HU t Ht) as (u & _ & Hu & E). exists u. auto. Qed.
  (* inputs given as an array are met at the given times *)
  Lemma signal_nodes d ts a b u U m : spline_ok spline -> m_hasin d = true -> m_m d = Some m -> time_domain ts a b -> signal spline d ts a b (Some (InArr u)) U ->
    forall j, j < length ts -> U (vget ts j) = Some (colv m (atleast_2d u) j).
  Proof. intros HS Eh Em HD HU j Hj. unfold signal in HU. rewrite Eh in HU. destruct HU as (m' & Em' & Hm & g & Eg & Hg). rewrite Em in Em'. injection Em' as <-.
    rewrite Hg by (apply domain_le; auto). f_equal. apply (HS _ _ _ _ Hm Eg). auto. Qed.

  (* the problem handed to the integrator *)
  Lemma problem_ok X d r needs q0 ts a b inputs U : SpecMono.trained X d r -> is_vec r q0 -> spline_ok spline -> time_domain ts a b -> signal spline d ts a b inputs U ->
    exists p, ode_problem spline junk d needs (V q0) (V ts) inputs = Ok p /\ iv_y0 p = q0 /\ iv_start p = a /\ iv_end p = b /\ iv_times p = ts /\
      (forall t q, (a <= t <= b)%R -> is_vec r q -> exists v, iv_f p t q = Ok v /\ velocity d r q (U t) v) /\
      (needs = false -> iv_jac p = None) /\
      (needs = true -> exists J, iv_jac p = Some J /\ forall t q, (a <= t <= b)%R -> J t q = model_jacobian junk d q (U t)).
  Proof. intros HT Hq HS HD HU. destruct (read_signal X d r ts a b inputs U HT HS HD HU) as (g & Eg & Hg). assert (HI := signal_input X d r ts a b inputs U HT HS HU).
    destruct (tr_inv X d r HT) as (HM & HC & Hr). unfold ode_problem. rewrite HC. cbn [bind]. rewrite Hr, Hq, Nat.eqb_refl. cbn [negb].
    assert (E1 : m_hasin d && match inputs with None => true | Some _ => false end = false).
    { destruct (m_hasin d) eqn:Eh; auto. unfold signal in HU. rewrite Eh in HU. destruct HU as (m & _ & HU). destruct inputs; auto. tauto. }
    rewrite E1, Eg. cbn [bind]. destruct HD as (Hn & Ea & Eb & _). rewrite <- (last_vget ts a Hn) in Eb. destruct ts as [|t0 ts]; [tauto|]. cbn [vget nth] in Ea. subst t0.
    eexists. split; [reflexivity|]. cbn [iv_y0 iv_start iv_end iv_times iv_f iv_jac]. split; auto. split; auto. split; auto. split; auto. split; [|split].
    - intros t q Ht Hqq. unfold ode_rhs, cont_rhs. rewrite Hg by auto. cbn [bind]. destruct (rhs_velocity X d r q (U t) HT Hqq (HI t Ht)) as (v & E & Hv). rewrite E. cbn [bind]. exists v. auto.
    - intros ->. reflexivity.
    - intros ->. eexists. split; [reflexivity|]. intros t q Ht. unfold ode_jac. rewrite Hg by auto. cbn [bind]. destruct (U t); reflexivity. Qed.
  (* its solutions are the trajectories of the model *)
  Lemma problem_solutions X d r needs q0 ts a b inputs U p y : SpecMono.trained X d r -> is_vec r q0 -> spline_ok spline -> time_domain ts a b -> signal spline d ts a b inputs U ->
    ode_problem spline junk d needs (V q0) (V ts) inputs = Ok p -> (ivp_solution r p y <-> trajectory d r U a b q0 y).
  Proof. intros HT Hq HS HD HU E. destruct (problem_ok X d r needs q0 ts a b inputs U HT Hq HS HD HU) as (p' & E' & A1 & A2 & A3 & _ & HF & _). rewrite E in E'. injection E' as <-.
    unfold ivp_solution, trajectory. rewrite A1, A2, A3. split; intros (H0 & H1 & H2 & H3); (split; [auto|]; split; [auto|]; split; [auto|]); intros t Ht; destruct (H3 t Ht) as (v & Hv & Hd);
      assert (Ht' : (a <= t <= b)%R) by lra; destruct (HF t (y t) Ht' (H1 t Ht')) as (w & Ew & Hw); exists v; split; auto.
    - rewrite Ew in Hv. injection Hv as <-. exact Hw.
    - rewrite Ew. f_equal. eapply velocity_fun; eauto. Qed.
  (* with needs_jac: what the integrator gets is the derivative of the right-hand side it gets *)
  Lemma problem_jacobian X d r q0 ts a b inputs U p : SpecMono.trained X d r -> is_vec r q0 -> spline_ok spline -> time_domain ts a b -> signal spline d ts a b inputs U ->
    (forall n, length (junk n) = n) -> ode_problem spline junk d true (V q0) (V ts) inputs = Ok p ->
    exists J, iv_jac p = Some J /\ forall t q, (a <= t <= b)%R -> is_vec r q ->
      ((forall o dg H, In o (m_ops d) -> mo_ent o = Some (OPoly dg H) -> newton_guard dg r) -> exists A, J t q = Ok A) /\
      forall A dir, J t q = Ok A -> is_vec r dir -> exists f : R -> vec,
        (forall h, iv_f p t (along q dir h) = Ok (f h)) /\ forall i, i < r -> derivable_pt_lim (fun h => vget (f h) i) 0 (vget (matvec A dir) i).
  Proof. intros HT Hq HS HD HU Hj E. destruct (problem_ok X d r true q0 ts a b inputs U HT Hq HS HD HU) as (p' & E' & A1 & A2 & A3 & _ & HF & _ & HJ). rewrite E in E'. injection E' as <-.
    destruct (HJ eq_refl) as (J & EJ & HJ'). exists J. split; auto. intros t q Ht Hqq. assert (HI := signal_input X d r ts a b inputs U HT HS HU t Ht). rewrite HJ' by auto. split.
    - intros HG. apply (C29_jac_defined X d r q (U t) junk HT Hqq HI HG).
    - intros A dir EA Hd. destruct (C29_jac_derivative X d r q (U t) junk A dir HT Hqq HI Hj EA Hd) as (f & Hf & Hder). exists f. split; auto. intros h.
      assert (Ha : is_vec r (along q dir h)). { unfold along, is_vec. rewrite map_length, seq_length. auto. }
      destruct (HF t _ Ht Ha) as (v & Ev & Hv). rewrite Ev. f_equal. destruct (rhs_velocity X d r _ (U t) HT Ha HI) as (w & Ew & Hw). rewrite Hf in Ew. injection Ew as ->. eapply velocity_fun; eauto. Qed.

  Section solver.
    Variable solve : ivp -> res sol.
    (* an accurate integrator gives the trajectory of the model *)
    Lemma predict_accurate X d r needs q0 ts a b inputs U eps s : SpecMono.trained X d r -> is_vec r q0 -> spline_ok spline -> time_domain ts a b -> signal spline d ts a b inputs U ->
      (forall p s, ode_problem spline junk d needs (V q0) (V ts) inputs = Ok p -> solve p = Ok s -> exists z, ivp_solution r p z /\ samples r eps (iv_times p) z s) ->
      cont_predict spline solve junk d needs (V q0) (V ts) inputs = Ok s ->
      (exists y, trajectory d r U a b q0 y /\ samples r eps ts y s) /\ (bounded_signal U a b -> forall y, trajectory d r U a b q0 y -> samples r eps ts y s).
    Proof. intros HT Hq HS HD HU HA E. destruct (problem_ok X d r needs q0 ts a b inputs U HT Hq HS HD HU) as (p & Ep & _ & _ & _ & A4 & _). unfold cont_predict in E. rewrite Ep in E. cbn [bind] in E.
      destruct (HA p s Ep E) as (z & Hz & Hs). rewrite A4 in Hs. assert (HTz := proj1 (problem_solutions X d r needs q0 ts a b inputs U p z HT Hq HS HD HU Ep) Hz). split; [exists z; auto|].
      intros HB y Hy. destruct Hs as (Y & HY & Es & HC). exists Y. split; auto. split; auto. intros i j Hi Hj.
      rewrite (trajectory_unique X d r U a b q0 y z) with (t := vget ts j); auto; [intros; apply (signal_input X d r ts a b inputs U); auto|apply domain_le; auto]. Qed.

    (* what is refused, before the integrator is called *)
    Lemma predict_refuses_untrained d needs q0 t inputs e : check_trained d = Err e -> cont_predict spline solve junk d needs q0 t inputs = Err e.
    Proof. intros E. unfold cont_predict, ode_problem. rewrite E. reflexivity. Qed.
    Lemma predict_refuses_args X d r needs q0 t inputs : SpecMono.trained X d r ->
      ((forall q, q0 = V q -> length q <> r) -> cont_predict spline solve junk d needs q0 t inputs = Err DimensionalityError) /\
      (forall q, q0 = V q -> is_vec r q ->
        (m_hasin d = true -> inputs = None -> cont_predict spline solve junk d needs q0 t inputs = Err ValueError) /\
        (forall T, t = M T -> cont_predict spline solve junk d needs q0 t inputs = Err ValueError) /\
        (forall m u ts, t = V ts -> m_hasin d = true -> m_m d = Some m -> inputs = Some (InArr u) -> nrows (atleast_2d u) <> m \/ ncols (atleast_2d u) <> length ts -> cont_predict spline solve junk d needs q0 t inputs = Err ValueError) /\
        (forall m f t0 ts, t = V (t0 :: ts) -> m_hasin d = true -> m_m d = Some m -> inputs = Some (InFun (FNum f)) -> m <> 1 -> cont_predict spline solve junk d needs q0 t inputs = Err DimensionalityError) /\
        (forall m f t0 ts, t = V (t0 :: ts) -> m_hasin d = true -> m_m d = Some m -> inputs = Some (InFun (FArr f)) -> (forall u, f t0 = V u -> length u <> m) -> cont_predict spline solve junk d needs q0 t inputs = Err DimensionalityError) /\
        (t = V [] -> m_hasin d = false -> cont_predict spline solve junk d needs q0 t inputs = Err IndexError)).
    Proof. intros HT. destruct (tr_inv X d r HT) as (HM & HC & Hr). unfold cont_predict, ode_problem. rewrite HC. cbn [bind]. rewrite Hr. split.
      - intros H. destruct q0 as [q|]; auto. specialize (H q eq_refl). apply Nat.eqb_neq in H. rewrite H. reflexivity.
      - intros q -> Hq. assert (EN : negb (length q =? r) = false) by (rewrite Hq, Nat.eqb_refl; reflexivity). split; [|split; [|split; [|split; [|split]]]].
        + intros -> ->. rewrite EN. reflexivity.
        + intros T ->. rewrite EN. destruct (_ && _); reflexivity.
        + intros m u ts -> Eh Em -> H. rewrite EN, Eh. cbn [andb]. unfold read_inputs. rewrite Eh, Em. cbn [negb].
          assert (E : (nrows (atleast_2d u) =? m) && (ncols (atleast_2d u) =? length ts) = false) by (destruct H as [H|H]; apply Nat.eqb_neq in H; rewrite H; [reflexivity|apply Bool.andb_false_r]).
          rewrite E. reflexivity.
        + intros m f t0 ts -> Eh Em -> H. rewrite EN, Eh. cbn [andb]. unfold read_inputs. rewrite Eh, Em. cbn [negb bind check_infunc]. apply Nat.eqb_neq in H. rewrite H. reflexivity.
        + intros m f t0 ts -> Eh Em -> H. rewrite EN, Eh. cbn [andb]. unfold read_inputs. rewrite Eh, Em. cbn [negb bind check_infunc]. destruct (f t0) as [u|]; auto. specialize (H u eq_refl). apply Nat.eqb_neq in H. rewrite H. reflexivity.
        + intros -> Eh. rewrite EN, Eh. cbn [andb]. unfold read_inputs. rewrite Eh. reflexivity. Qed.

    (* as the regularization search uses it *)
    Lemma search_well needs : (forall p s, solve p = Ok s -> length s = length (iv_y0 p) /\ exists w, Forall (fun row => length row = w) s) -> solves_well (search_predict spline solve junk needs).
    Proof. intros H d q t u s E. unfold search_predict, cont_predict, ode_problem in E. destruct (check_trained d) as [[]|]; [|discriminate]. cbn [bind] in E. destruct (m_r d) as [r|]; [|discriminate].
      destruct (negb _); [discriminate|]. destruct (_ && _); [discriminate|]. destruct (read_inputs _ _ _ _) as [g|]; [|discriminate]. cbn [bind] in E. destruct t as [|t0 ts]; [discriminate|]. cbn [bind] in E.
      apply H in E. exact E. Qed.

    (* ROM.predict *)
    Lemma reals_F Y : reals (map (map F) Y) = Some Y.
    Proof. unfold reals. induction Y as [|row Y IH]; [reflexivity|]. cbn [map all_some]. rewrite IH.
      assert (E : all_some (map real_of (map F row)) = Some row); [|rewrite E; reflexivity]. clear. induction row as [|x row IH]; [reflexivity|]. cbn [map all_some real_of]. rewrite IH. reflexivity. Qed.
    Lemma rom_predict_accurate X r p n0 n needs q0 e ts a b inputs U eps Q : SpecMono.trained X (rm_model r) p -> trained_parts n p (rm_parts r) -> columnwise_lifter n0 n (rp_lift (rm_parts r)) ->
      is_vec n0 q0 -> spline_ok spline -> time_domain ts a b -> signal spline (rm_model r) ts a b inputs U -> encode1 (rm_parts r) (V q0) = Ok e ->
      (forall iv s q, e = V q -> ode_problem spline junk (rm_model r) needs (V q) (V ts) inputs = Ok iv -> solve iv = Ok s -> exists z, ivp_solution p iv z /\ samples p eps (iv_times iv) z s) ->
      rom_predict_continuous spline solve junk r needs (V q0) (V ts) inputs = Ok Q ->
      exists q y A Q', e = V q /\ trajectory (rm_model r) p U a b q y /\ samples p eps ts y (map (map F) A) /\ Q = M Q' /\ is_mat n0 (length ts) Q' /\
        forall j, j < length ts -> decode (rm_parts r) (V (colv p A j)) None = Ok (V (colv n0 Q' j)).
    Proof. intros HT HP HL Hq HS HD HU E HA EP. destruct (encode_columns n0 n p _ HP HL 1 (V q0)) with (b := e) as (Se & Ke & _); auto. { split; auto. }
      destruct e as [q|]; [|destruct Ke]. destruct Se as [Hs _]. unfold rom_predict_continuous, rom_predict_with in EP. rewrite E in EP. cbn [bind] in EP.
      destruct (cont_predict _ _ _ _ _ _ _ _) as [s|] eqn:Ec; [|discriminate]. cbn [bind] in EP.
      destruct (predict_accurate X (rm_model r) p needs q ts a b inputs U eps s HT Hs HS HD HU) as ((y & Hy & HSy) & _); auto. { intros iv s' E1 E2. apply (HA iv s' q); auto. }
      destruct HSy as (A & HAm & -> & HC). rewrite reals_F in EP. cbn [bind] in EP.
      destruct (decode_columns n0 n p _ HP HL (length ts) (M A) HAm Q EP) as (SY & KY & CY). destruct Q as [|Q']; [destruct KY|]. exists q, y, A, Q'. split; auto. split; auto. split; [exists A; auto|]. split; auto. Qed.

    (* a parametric model predicts what the model evaluated at the parameter predicts *)
    Lemma parametric_ok d mu needs q0 t inputs e : snd (pevaluate d mu) = Ok e -> pcont_predict spline solve junk d mu needs q0 t inputs = cont_predict spline solve junk e needs q0 t inputs.
    Proof. intros E. unfold pcont_predict. rewrite E. reflexivity. Qed.
  End solver.
End ode.
