(* DdtItpProofs.v -- InterpDerivativeEstimator. *)
From Coq Require Import ZArith Reals Lra Lia.
From Verif Require Import AffProofs DdtProofs PreProofs.
From Verif Require Export SpecDdtItp.
#[local] Open Scope nat_scope.

Lemma interp_rows f t A k sp : Forall (fun row => length row = k) A -> length t = k -> interp_of f 1 t (M A) = Ok sp ->
  exists gl, Forall2 (fun row g => f t row = Ok g) A gl /\ forall nu ts, sp nu ts = M (map (fun g => map (g nu) ts) gl).
Proof. intros HA Ht E. unfold interp_of in E. cbn [Nat.modulo Nat.divmod] in E. change (1 mod 2 =? 1) with true in E. cbv iota in E. destruct (mapM _ _) as [gl|] eqn:EM; [|discriminate]. cbn [bind] in E. injection E as <-.
  exists gl. split; auto. apply mapM_Forall2 in EM. clear -EM HA Ht. induction EM as [|row g A gl H EM IH]; constructor.
  - inversion HA; subst. unfold row_rule in H. rewrite H2, Nat.eqb_refl in H. exact H.
  - inversion HA; subst. auto. Qed.
Lemma interp_rows_ok f t A k : Forall (fun row => length row = k) A -> length t = k -> (forall row, In row A -> exists g, f t row = Ok g) -> exists sp, interp_of f 1 t (M A) = Ok sp.
Proof. intros HA Ht H. unfold interp_of. change (1 mod 2 =? 1) with true. cbv iota.
  assert (HM : exists gl, mapM (row_rule f t) A = Ok gl).
  { induction HA as [|row A Hr HA IH]; [exists []; reflexivity|]. destruct IH as (gl & E); [intros; apply H; right; auto|]. destruct (H row) as (g & Eg); [left; auto|].
    exists (g :: gl). cbn [mapM]. unfold row_rule at 1. rewrite Hr, Ht, Nat.eqb_refl. cbn [negb]. rewrite Eg. cbn [bind]. rewrite E. reflexivity. }
  destruct HM as (gl & E). rewrite E. cbn [bind]. eexists. reflexivity. Qed.

Definition g0 : nat -> R -> R := fun _ _ => 0%R.
Lemma gl_interpolated f t A gl : Forall2 (fun row g => f t row = Ok g) A gl -> interpolated f t (length A) A (fun i => nth i gl g0).
Proof. induction 1 as [|row g A gl H HF IH]; intros i Hi; cbn in Hi; [lia|]. destruct i as [|i]; cbn [nth]; auto. apply IH. lia. Qed.
Lemma gl_evaluated nu ts gl : evaluated nu (length gl) (fun i => nth i gl g0) ts (map (fun g => map (g nu) ts) gl).
Proof. split.
  - split; [apply map_length|]. apply Forall_forall. intros row H. apply in_map_iff in H. destruct H as (g & <- & _). apply map_length.
  - intros i j Hi Hj. unfold mget, vget. rewrite (nth_map_in (fun g => map (g nu) ts) gl i [] g0) by auto. rewrite (nth_map_in (nth i gl g0 nu) ts j 0%R 0%R) by auto. reflexivity. Qed.

Section itp.
  Variable lib : icname -> rule.

  Lemma check_inputs_ok k Q u U r : is_mat r k Q -> 0 < r -> check_inputs Q u = Ok U -> U = option_map two_dim u /\ forall A, U = Some A -> ncols A = k.
  Proof. intros HQ Hr E. unfold check_inputs in E. destruct u as [a|]; [|injection E as <-; split; [reflexivity|discriminate]]. rewrite (ncols_is_mat r k Q) in E by auto.
    destruct (Nat.eqb_spec (ncols match a with V v => [v] | M A => A end) k) as [En|]; cbn [negb] in E; [|discriminate]. injection E as <-. split; [destruct a; reflexivity|]. intros A [= <-]. auto. Qed.

  (* the estimator that __init__ makes from a name *)
  Lemma init_named t n t2 e : ide_init lib t (ICName n) t2 = Ok e -> exists n', n = Some n' /\ t = V (id_time e) /\ id_class e = interp_of (lib n') 1 /\
    match t2 with NNone => id_new e = None | NArr (V ts) => id_new e = Some ts /\ ts <> [] | _ => False end.
  Proof. intros E. unfold ide_init in E. destruct t as [t|]; [|discriminate]. destruct n as [n'|]; [|discriminate]. cbn [bind] in E. exists n'.
    destruct t2 as [|[ts|]|]; try discriminate.
    - injection E as <-. auto.
    - destruct ts as [|x ts]; [discriminate|]. destruct t as [|y t]; [discriminate|]. injection E as <-. repeat split; auto. discriminate. Qed.
  Lemma init_rejects t c t2 : (forall v, t <> V v) -> ide_init lib t c t2 = Err ValueError.
  Proof. destruct t as [v|]; auto. intros H. destruct (H v eq_refl). Qed.
  Lemma init_rejects_name t t2 : ide_init lib t (ICName None) t2 = Err ValueError.
  Proof. destruct t; reflexivity. Qed.
  Lemma init_rejects_new t c : (exists e, ide_init lib t c NNone = Ok e) -> ide_init lib t c NOther = Err TypeError /\ forall A, ide_init lib t c (NArr (M A)) = Err TypeError.
  Proof. intros (e & E). unfold ide_init in *. destruct t; [|discriminate]. destruct c as [[n|]|C]; [| discriminate|]; cbn [bind] in *; split; auto. Qed.

  Definition shaped_in (k : nat) (u : option arr) : Prop := forall A, u = Some (M A) -> exists m, is_mat m k A.
  Lemma two_dim_rows k a : (forall A, a = M A -> exists m, is_mat m k A) -> ncols (two_dim a) = k -> Forall (fun row => length row = k) (two_dim a).
  Proof. intros H E. destruct a as [v|A]; cbn in *; [constructor; auto|]. destruct (H A eq_refl) as (m & _ & HF). exact HF. Qed.

  Lemma estimate_ok e n r Q u Q1 D1 u1 : id_class e = interp_of (lib n) 1 -> 0 < r -> is_mat r (length (id_time e)) Q -> shaped_in (length (id_time e)) u -> ide_estimate e (M Q) u = Ok (Q1, D1, u1) ->
    exists gs, interpolated (lib n) (id_time e) r Q gs /\ evaluated 1 r gs (out_times e) D1 /\
      (id_new e = None -> Q1 = Q /\ u1 = option_map (fun a => M (two_dim a)) u) /\
      (id_new e <> None -> evaluated 0 r gs (out_times e) Q1 /\
         (u = None -> u1 = None) /\ forall a, u = Some a -> exists hs U1, u1 = Some (M U1) /\ interpolated (lib n) (id_time e) (length (two_dim a)) (two_dim a) hs /\ evaluated 0 (length (two_dim a)) hs (out_times e) U1).
  Proof. intros HC Hr HQ HU E. unfold ide_estimate in E. rewrite (ncols_is_mat r (length (id_time e)) Q) in E by auto. rewrite Nat.eqb_refl in E. cbn [negb] in E.
    destruct (check_inputs Q u) as [U|] eqn:EU; [|discriminate]. destruct (check_inputs_ok _ Q u U r HQ Hr EU) as (-> & Hcols). cbn [bind] in E. rewrite HC in E.
    destruct (interp_of (lib n) 1 (id_time e) (M Q)) as [sp|] eqn:ES; [|discriminate]. cbn [bind] in E. destruct HQ as (HlQ & HrQ).
    destruct (interp_rows (lib n) (id_time e) Q _ sp HrQ eq_refl ES) as (gl & HF & Hsp). assert (Hl := F2_length _ _ _ HF).
    exists (fun i => nth i gl g0). unfold out_times. rewrite <- HlQ. split; [apply gl_interpolated; auto|]. rewrite Hl. destruct (id_new e) as [t2|] eqn:En.
    - rewrite !Hsp in E. cbn [as_mat bind] in E. destruct u as [a|]; cbn [option_map] in E.
      + destruct (interp_of (lib n) 1 (id_time e) (M (two_dim a))) as [isp|] eqn:EI; [|discriminate]. cbn [bind] in E. injection E as <- <- <-.
        destruct (interp_rows (lib n) (id_time e) (two_dim a) (length (id_time e)) isp) as (hl & HF' & Hisp); auto. { apply two_dim_rows; auto. intros A ->. apply (HU A). reflexivity. }
        split; [apply gl_evaluated|]. split; [discriminate|]. intros _. split; [apply gl_evaluated|]. split; [discriminate|]. intros a' [= <-]. rewrite Hisp. exists (fun i => nth i hl g0). eexists.
        split; [reflexivity|]. assert (Hl' := F2_length _ _ _ HF'). split; [apply gl_interpolated; auto|]. rewrite Hl'. apply gl_evaluated.
      + injection E as <- <- <-. split; [apply gl_evaluated|]. split; [discriminate|]. intros _. split; [apply gl_evaluated|]. split; auto. discriminate.
    - rewrite Hsp in E. cbn [as_mat bind] in E. injection E as <- <- <-. split; [apply gl_evaluated|]. split; [|tauto]. intros _. split; auto. destruct u; reflexivity. Qed.

  (* states returned are values, at the times of the estimates, of functions that meet the data, and the derivatives are those of the same functions *)
  Lemma estimate_derivative e n r Q u Q1 D1 u1 : id_class e = interp_of (lib n) 1 -> 0 < r -> is_mat r (length (id_time e)) Q -> shaped_in (length (id_time e)) u -> ide_estimate e (M Q) u = Ok (Q1, D1, u1) ->
    meets_data (lib n) -> differentiates (lib n) (out_times e) -> is_mat r (length (out_times e)) Q1 /\ is_mat r (length (out_times e)) D1 /\
    exists f : nat -> R -> R, (forall i j, i < r -> j < length (id_time e) -> f i (vget (id_time e) j) = mget Q i j) /\
      forall i j, i < r -> j < length (out_times e) -> mget Q1 i j = f i (vget (out_times e) j) /\ derivable_pt_lim (f i) (vget (out_times e) j) (mget D1 i j).
  Proof. intros HC Hr HQ HU E HM HD. destruct (estimate_ok e n r Q u Q1 D1 u1 HC Hr HQ HU E) as (gs & HI & (HD1 & HDe) & HN & HS).
    assert (HlQ : forall i, i < r -> length (nth i Q []) = length (id_time e)). { intros i Hi. destruct HQ as (Hl & HF). rewrite Forall_forall in HF. apply HF, nth_In. lia. }
    assert (HQ1 : is_mat r (length (out_times e)) Q1 /\ forall i j, i < r -> j < length (out_times e) -> mget Q1 i j = gs i 0 (vget (out_times e) j)).
    { destruct (id_new e) as [t2|] eqn:En; [apply HS; discriminate|]. destruct (HN eq_refl) as (-> & _). unfold out_times. rewrite En. split; auto.
      intros i j Hi Hj. symmetry. apply (HM (id_time e) (nth i Q [])); auto. }
    destruct HQ1 as (HQ1 & HQe). split; auto. split; auto. exists (fun i => gs i 0). split.
    - intros i j Hi Hj. apply (HM (id_time e) (nth i Q [])); auto.
    - intros i j Hi Hj. split; [apply HQe; auto|]. rewrite HDe by auto. apply (HD (id_time e) (nth i Q [])); auto. Qed.

  Lemma estimate_defined e n r Q : id_class e = interp_of (lib n) 1 -> 0 < r -> is_mat r (length (id_time e)) Q -> (forall row, In row Q -> exists g, lib n (id_time e) row = Ok g) ->
    (exists out, ide_estimate e (M Q) None = Ok out) /\
    forall a, shaped_in (length (id_time e)) (Some a) -> ncols (two_dim a) = length (id_time e) -> (forall row, In row (two_dim a) -> exists g, lib n (id_time e) row = Ok g) -> exists out, ide_estimate e (M Q) (Some a) = Ok out.
  Proof. intros HC Hr HQ HG. destruct (interp_rows_ok (lib n) (id_time e) Q (length (id_time e)) (proj2 HQ) eq_refl HG) as (sp & Esp).
    destruct (interp_rows (lib n) (id_time e) Q _ sp (proj2 HQ) eq_refl Esp) as (gl & _ & Hsp).
    split.
    - unfold ide_estimate. rewrite (ncols_is_mat r (length (id_time e)) Q), Nat.eqb_refl by auto. cbn [negb check_inputs bind]. rewrite HC, Esp. cbn [bind option_map]. destruct (id_new e); rewrite ?Hsp; cbn [as_mat bind]; eexists; reflexivity.
    - intros a Ha Hn Hg. assert (HR : Forall (fun row => length row = length (id_time e)) (two_dim a)) by (apply two_dim_rows; auto; intros A ->; apply (Ha A); reflexivity).
      destruct (interp_rows_ok (lib n) (id_time e) (two_dim a) (length (id_time e)) HR eq_refl Hg) as (isp & Eisp).
      unfold ide_estimate, check_inputs. rewrite (ncols_is_mat r (length (id_time e)) Q), Nat.eqb_refl by auto. cbn [negb]. fold (two_dim a). rewrite Hn, Nat.eqb_refl. cbn [negb bind]. rewrite HC, Esp. cbn [bind].
      destruct (id_new e); cbn [option_map]; rewrite ?Hsp; cbn [as_mat bind]; [|eexists; reflexivity]. rewrite Eisp. cbn [bind as_mat]. rewrite ?Hsp. cbn [as_mat bind]. eexists; reflexivity. Qed.

  Lemma estimate_rejects e Q u : (exists v, Q = V v) \/ (exists A, Q = M A /\ ncols A <> length (id_time e)) \/ (exists A a, Q = M A /\ u = Some a /\ ncols (two_dim a) <> ncols A) -> ide_estimate e Q u = Err DimensionalityError.
  Proof. intros [(v & ->)|[(A & -> & H)|(A & a & -> & -> & H)]]; auto; unfold ide_estimate.
    - apply Nat.eqb_neq in H. rewrite H. reflexivity.
    - destruct (negb (ncols A =? length (id_time e))); auto. unfold check_inputs. fold (two_dim a). apply Nat.eqb_neq in H. rewrite H. reflexivity. Qed.

  (* mask() gives what estimate() gives, for every class of interpolators *)
  Lemma estimate_mask e Q u Q1 D1 u1 : ide_estimate e (M Q) u = Ok (Q1, D1, u1) -> ide_mask e (M Q) = Ok (M Q1) /\
    match u with None => u1 = None | Some a => exists b, u1 = Some b /\ ide_mask e (M (two_dim a)) = Ok b end.
  Proof. intros E. unfold ide_estimate in E. destruct (negb _); [discriminate|]. unfold check_inputs in E. destruct u as [a|].
    - fold (two_dim a) in E. destruct (negb _); [discriminate|]. cbn [bind] in E. unfold ide_mask. destruct (id_class e (id_time e) (M Q)) as [sp|]; [|discriminate]. cbn [bind] in E. destruct (id_new e) as [t2|].
      + destruct (sp 0 t2) as [|Q2] eqn:E0; [discriminate|]. cbn [as_mat bind] in E. destruct (id_class e (id_time e) (M (two_dim a))) as [isp|]; [|discriminate]. cbn [bind] in E. destruct (as_mat (sp 1 t2)); [|discriminate]. cbn [bind] in E.
        injection E as <- <- <-. cbn [bind]. rewrite E0. split; auto. eexists; eauto.
      + destruct (as_mat (sp 1 (id_time e))); [|discriminate]. injection E as <- <- <-. split; auto. cbn. eexists; eauto.
    - cbn [bind] in E. unfold ide_mask. destruct (id_class e (id_time e) (M Q)) as [sp|]; [|discriminate]. cbn [bind] in E. destruct (id_new e) as [t2|].
      + destruct (sp 0 t2) as [|Q2] eqn:E0; [discriminate|]. cbn [as_mat bind] in E. destruct (as_mat (sp 1 t2)); [|discriminate]. injection E as <- <- <-. cbn [bind]. rewrite E0. auto.
      + destruct (as_mat (sp 1 (id_time e))); [|discriminate]. injection E as <- <- <-. auto. Qed.
  (* mask() treats a one-dimensional array like a row *)
  Lemma mask_1d e n v : id_class e = interp_of (lib n) 1 -> length v = length (id_time e) ->
    match ide_mask e (V v), ide_mask e (M [v]) with Ok (V w), Ok (M [w']) => w = w' | Err a, Err b => a = b | _, _ => False end.
  Proof. intros HC Hv. unfold ide_mask. destruct (id_new e) as [t2|]; [|reflexivity]. rewrite HC. unfold interp_of. change (1 mod 2 =? 1) with true. cbv iota. cbn [mapM]. unfold row_rule.
    rewrite Hv, Nat.eqb_refl. cbn [negb]. destruct (lib n (id_time e) v) as [g|]; cbn [bind map]; reflexivity. Qed.
End itp.

(* ---- a class given instead of a name is used along the wrong axis ---- *)
Definition line_rule : rule := fun t v =>
  match t, v with
  | [t0; t1], [v0; v1] => if Req_EM_T t0 t1 then Err ValueError else Ok (fun nu x => match nu with 0 => v0 + (x - t0) / (t1 - t0) * (v1 - v0) | S 0 => (v1 - v0) / (t1 - t0) | _ => 0 end)%R
  | _, _ => Err ValueError
  end.
Lemma line_meets : meets_data line_rule.
Proof. intros t v g j Hl E Hj. unfold line_rule in E. destruct t as [|t0 [|t1 [|]]]; try discriminate. destruct v as [|v0 [|v1 [|]]]; try discriminate. destruct (Req_EM_T t0 t1) as [|Hne]; [discriminate|]. injection E as <-.
  assert (t1 - t0 <> 0)%R by lra. destruct j as [|[|j]]; [| |cbn in Hj; lia]; unfold vget; cbn [nth]; field; auto. Qed.
Lemma line_diff ts : differentiates line_rule ts.
Proof. intros t v g j Hl E Hj. unfold line_rule in E. destruct t as [|t0 [|t1 [|]]]; try discriminate. destruct v as [|v0 [|v1 [|]]]; try discriminate. destruct (Req_EM_T t0 t1) as [|Hne]; [discriminate|]. injection E as <-.
  set (x := vget ts j). replace ((v1 - v0) / (t1 - t0))%R with (0 + (v1 - v0) / (t1 - t0) * (1 - 0))%R by (field; lra).
  apply (derivable_pt_lim_plus (fct_cte v0) (fun x => ((x - t0) / (t1 - t0) * (v1 - v0))%R)); [apply derivable_pt_lim_const|].
  apply (derivable_pt_lim_ext (fun x => ((v1 - v0) / (t1 - t0) * (x - t0))%R)); [intros; unfold Rdiv; ring|].
  apply (derivable_pt_lim_scal (fun x => (x - t0)%R)). apply (derivable_pt_lim_minus id (fct_cte t0)); [apply derivable_pt_lim_id|apply derivable_pt_lim_const]. Qed.

