(* AnyRomLib.v -- the parts of the library are parts in the sense of AnyRomModel.v, and the claims that fail. *)
From Coq Require Import ZArith Lra Lia.
From Verif Require Import LinAlg MatAlg MonoEx LiftProofs RomParts RomProofs RomFit RomEx AnyRomProofs AnyRomFit.
From Verif Require Import SpecAnyRom.
#[local] Open Scope nat_scope.
#[local] Open Scope list_scope.

(* pre/*.py: TransformerMulti and the classes derived from TransformerTemplate.  (A fit() of these that raises is taken to
   leave the transformer alone.) *)
Definition lib_t : tclass :=
  {| tobj := tf; ct_fit := fun t a => match fit_transform t a with Ok (t', _) => (t', Ok tt) | Err e => (t, Err e) end;
     ct_fit_transform := fun t a => match fit_transform t a with Ok (t', b) => (t', Ok b) | Err e => (t, Err e) end;
     ct_transform := transform; ct_ddts := transform_ddts; ct_inverse := fun t z locs => inverse_transform t locs z |}.
(* basis/*.py, with the same simplification; X are the routines that PODBasis.fit() calls *)
Definition lib_b (X : BasisModel.ext) : bclass :=
  {| bobj := rbasis; cb_fit := fun b a => match rb_fit X b a with Ok b' => (b', Ok tt) | Err e => (b, Err e) end; cb_compress := rb_compress; cb_decompress := rb_decompress |}.
(* models/mono/_nonparametric.py: the models of class k, and predict(state0, niters, inputs) *)
Definition lib_m (k : kind) : mclass (Z * option inputarg) :=
  {| mobj := model; cm_cont := match k with KContinuous => true | _ => false end; cm_hasin := m_hasin;
     cm_predict := fun d a e => do Y <- predict d e (fst a) (snd a); Ok (M Y) |}.
Definition of_rom (X : BasisModel.ext) (k : kind) (r : rom) : arom lib_t (lib_b X) (lib_m k) :=
  {| a_lift := rp_lift (rm_parts r); a_tf := rp_tf (rm_parts r) : option (tobj lib_t); a_basis := rp_basis (rm_parts r) : option (bobj (lib_b X)); a_ddt := rm_ddt r; a_model := rm_model r : mobj (lib_m k) |}.

Section L.
  Variable X : BasisModel.ext.
  Lemma lib_encode r a lhs : aencode _ _ _ (of_rom X (m_kind (rm_model r)) r) a lhs = encode (rm_parts r) (rm_cont r) a lhs.
  Proof. unfold encode, encode_fit, aencode, aencode_fit. change (a_lifting _ _ _ (of_rom X (m_kind (rm_model r)) r) a lhs) with (rom_lift (rm_parts r) (rm_cont r) a lhs).
    destruct (rom_lift _ _ a lhs) as [[a1 z1]|]; auto. cbn [bind]. unfold a_transforming, rom_transform. cbn [of_rom a_tf]. destruct (rp_tf (rm_parts r)) as [t|].
    - cbn [lib_t ct_transform]. destruct (transform t a1) as [b|]; [|reflexivity]. cbn [bind]. change (cm_cont (lib_m (m_kind (rm_model r)))) with (rm_cont r). destruct (opt_map _ z1) as [z2|]; [|reflexivity]. cbn [bind]. unfold sbind. cbn [snd fst].
      unfold a_compressing, rom_compress. cbn [with_tf of_rom a_basis rp_basis]. destruct (rp_basis (rm_parts r)) as [b0|]; [|reflexivity]. cbn [snd bind lib_b cb_compress]. destruct (rb_compress b0 b); [|reflexivity]. cbn [bind]. destruct (opt_map _ z2); reflexivity.
    - unfold sbind. cbn [snd fst bind]. unfold a_compressing, rom_compress. cbn [of_rom a_basis]. destruct (rp_basis (rm_parts r)) as [b0|]; [|reflexivity]. cbn [snd bind lib_b cb_compress]. destruct (rb_compress b0 a1); [|reflexivity]. cbn [bind]. destruct (opt_map _ z1); reflexivity. Qed.
  Lemma lib_encode1 r a : aencode1 _ _ _ (of_rom X (m_kind (rm_model r)) r) a = encode1 (rm_parts r) a.
  Proof. unfold aencode1. rewrite lib_encode, encode_cont_none. destruct (encode1 (rm_parts r) a); reflexivity. Qed.
  Lemma lib_predict r a q0 : apredict _ _ _ (of_rom X (m_kind (rm_model r)) r) a q0 = rom_predict r q0 (fst a) (snd a).
  Proof. unfold apredict, rom_predict, rom_predict_with. rewrite lib_encode1. reflexivity. Qed.

  Definition put (r : rom) (P : parts) : rom := {| rm_parts := P; rm_ddt := rm_ddt r; rm_model := rm_model r |}.
  Lemma lib_tt k r ft Qs Zs : match a_train_transform _ _ _ (of_rom X k r) ft Qs Zs, train_transform (rm_parts r) (cm_cont (lib_m k)) ft Qs Zs with
    | (r2, Ok (q, z)), Ok (P, q', z') => q = q' /\ z = z' /\ r2 = of_rom X k (put r P)
    | (_, Err e), Err e' => e = e'
    | _, _ => False
    end.
  Proof. unfold a_train_transform, train_transform. cbn [of_rom a_tf]. destruct (rp_tf (rm_parts r)) as [t|] eqn:Et. 2:{ repeat split; auto. }
    assert (K : forall t', match (with_tf _ _ _ (of_rom X k r) t', do qs <- mapM (transform t') Qs; do zs <- opt_map (mapM (if cm_cont (lib_m k) then transform_ddts t' else transform t')) Zs; Ok (qs, zs)),
       (do qs <- mapM (transform t') Qs; do zs <- opt_map (mapM (if cm_cont (lib_m k) then transform_ddts t' else transform t')) Zs; Ok ({| rp_lift := rp_lift (rm_parts r); rp_tf := Some t'; rp_basis := rp_basis (rm_parts r) |}, qs, zs)) with
       | (r2, Ok (q, z)), Ok (P, q', z') => q = q' /\ z = z' /\ r2 = of_rom X k (put r P) | (_, Err e), Err e' => e = e' | _, _ => False end).
    { intros t'. destruct (mapM (transform t') Qs) as [qs|]; cbn [bind]; auto. destruct (opt_map _ Zs) as [zs|]; cbn [bind]; auto. }
    destruct ft; cbn [bind]; [|apply K]. destruct (hstack_arr Qs) as [H|]; cbn [bind]; auto. cbn [lib_t ct_fit]. destruct (fit_transform t H) as [[t' b]|]; cbn [bind fst]; auto. apply K. Qed.
  Lemma lib_tc k r (fb : bool) Qs Zs : match a_train_compress _ _ _ (of_rom X k r) fb Qs Zs, train_compress (rm_parts r) (if fb then Some X else None) Qs Zs with
    | (r2, Ok (q, z)), Ok (P, q', z') => q = q' /\ z = z' /\ r2 = of_rom X k (put r P)
    | (_, Err e), Err e' => e = e'
    | _, _ => False
    end.
  Proof. unfold a_train_compress, train_compress. cbn [of_rom a_basis]. destruct (rp_basis (rm_parts r)) as [t|] eqn:Et. 2:{ repeat split; auto. }
    assert (K : forall t', match (with_basis _ _ _ (of_rom X k r) t', do qs <- mapM (rb_compress t') Qs; do zs <- opt_map (mapM (rb_compress t')) Zs; Ok (qs, zs)),
       (do qs <- mapM (rb_compress t') Qs; do zs <- opt_map (mapM (rb_compress t')) Zs; Ok ({| rp_lift := rp_lift (rm_parts r); rp_tf := rp_tf (rm_parts r); rp_basis := Some t' |}, qs, zs)) with
       | (r2, Ok (q, z)), Ok (P, q', z') => q = q' /\ z = z' /\ r2 = of_rom X k (put r P) | (_, Err e), Err e' => e = e' | _, _ => False end).
    { intros t'. destruct (mapM (rb_compress t') Qs) as [qs|]; cbn [bind]; auto. destruct (opt_map _ Zs) as [zs|]; cbn [bind]; auto. }
    destruct fb; cbn [bind]; [|apply K]. destruct (hstack_arr Qs) as [H|]; cbn [bind]; auto. cbn [lib_b cb_fit]. destruct (rb_fit X t H) as [t'|]; cbn [bind fst]; auto. apply K. Qed.
  Theorem lib_fit LX r T ft (fb : bool) : let x := arom_fit lib_t (lib_b X) (lib_m (m_kind (rm_model r))) (model_fit LX) (of_rom X (m_kind (rm_model r)) r) T ft fb in let y := rom_fit LX r T ft (if fb then Some X else None) in
    snd x = snd y /\ (snd y = Ok tt -> fst x = of_rom X (m_kind (rm_model r)) (fst y)).
  Proof. cbn zeta. unfold arom_fit, rom_fit, rom_fit_with. cbn [of_rom a_model a_ddt]. change (cm_cont (lib_m (m_kind (rm_model r)))) with (rm_cont r). change (cm_hasin (lib_m (m_kind (rm_model r))) (rm_model r)) with (m_hasin (rm_model r)).
    destruct (check_fit_args _ _ _ _ _) as [[]|]; cbn [bind]; [|split; [reflexivity|discriminate]]. destruct (fix_single T) as [[[Qs Zs] Us]|]; cbn [bind]; [|split; [reflexivity|discriminate]].
    unfold a_fit_model, a_process, process_training. change (train_lift (lift_part _ _ _ (of_rom X (m_kind (rm_model r)) r)) (cm_cont (lib_m (m_kind (rm_model r)))) Qs Zs) with (train_lift (rm_parts r) (rm_cont r) Qs Zs).
    destruct (train_lift _ _ Qs Zs) as [[q1 z1]|]; cbn [bind sbind]; unfold sbind; cbn [fst snd]; [|split; [reflexivity|discriminate]].
    assert (K := lib_tt (m_kind (rm_model r)) r ft q1 z1). change (cm_cont (lib_m (m_kind (rm_model r)))) with (rm_cont r) in *. cbn [of_rom] in *. 
    destruct (a_train_transform _ _ _ _ ft q1 z1) as [r2 [[q2 z2]|e]], (train_transform (rm_parts r) (rm_cont r) ft q1 z1) as [[[P2 q2'] z2']|e']; try contradiction; cbn [bind fst snd]; [|subst; split; [reflexivity|discriminate]].
    destruct K as (<- & <- & ->). assert (K := lib_tc (m_kind (rm_model r)) (put r P2) fb q2 z2). change (rm_parts (put r P2)) with P2 in K.
    destruct (a_train_compress _ _ _ _ fb q2 z2) as [r3 [[q3 z3]|e]], (train_compress P2 _ q2 z2) as [[[P3 q3'] z3']|e']; try contradiction; cbn [bind fst snd]; [|subst; split; [reflexivity|discriminate]].
    destruct K as (<- & <- & ->). cbn [of_rom put a_ddt rm_ddt]. destruct (train_lhs (rm_ddt r) (rm_cont r) q3 z3 Us) as [[[es ds] us]|e]; cbn [bind fst snd]; [|split; [reflexivity|discriminate]].
    cbn [a_model rm_model of_rom put]. unfold stacked. destruct (do U <- hstack_opt us; _) as [[[Q L] U]|e]; [|split; [reflexivity|discriminate]]. 
    destruct (model_fit LX (rm_model r) Q L U) as [d [[]|e]]; cbn; split; auto; try (intros; reflexivity); try discriminate. Qed.
End L.
Theorem lib_rom X r : (forall a lhs, aencode _ _ _ (of_rom X (m_kind (rm_model r)) r) a lhs = encode (rm_parts r) (rm_cont r) a lhs) /\
  (forall q locs, adecode _ _ _ (of_rom X (m_kind (rm_model r)) r) q locs = decode (rm_parts r) q locs) /\
  (forall q0 n u, apredict _ _ _ (of_rom X (m_kind (rm_model r)) r) (n, u) q0 = rom_predict r q0 n u) /\
  (forall LX T ft (fb : bool), let x := arom_fit lib_t (lib_b X) (lib_m (m_kind (rm_model r))) (model_fit LX) (of_rom X (m_kind (rm_model r)) r) T ft fb in let y := rom_fit LX r T ft (if fb then Some X else None) in
    snd x = snd y /\ (snd y = Ok tt -> fst x = of_rom X (m_kind (rm_model r)) (fst y))).
Proof. split; [intros; apply lib_encode|]. split; [reflexivity|]. split; [intros; apply (lib_predict X r (n, u))|]. intros. apply lib_fit. Qed.

(* ---- claims that fail ---- *)
(* with a lifter, projecting is not idempotent: QuadraticLifter and the basis vector (3/5, 4/5) *)
Definition pb : basis := BLin {| lb_entries := [[3 / 5]; [4 / 5]]%R; lb_weights := None; lb_n := Some 2; lb_r := 1; lb_name := None |}.
Definition pP : parts := {| rp_lift := Some quad_lifter; rp_tf := None; rp_basis := Some (BOne pb) |}.
Lemma pP_trained : trained_parts 2 1 pP.
Proof. split; [exact I|]. cbn. exists None, [[3 / 5]; [4 / 5]]%R. split.
  - split; [lia|]. split; [lia|]. split; [split; repeat constructor|]. split; [reflexivity|]. split; reflexivity.
  - intros [|a] [|b] Ha Hb; try lia. unfold wip. cbn. field. Qed.
Lemma pP_project x : rom_project pP (V [x]) = Ok (V [3 / 5 * (3 / 5 * x + 4 / 5 * (x * x))]%R).
Proof. assert (E : encode1 pP (V [x]) = Ok (V [3 / 5 * x + 4 / 5 * (x * x)]%R)).
  { apply encode1_iff. exists (V [x; x * x]%R), (V [x; x * x]%R). split; [|split; [reflexivity|]].
    - cbn [pP rp_lift via quad_lifter lf_lift]. unfold quad_lift. cbn [finite nmap map nappend]. change 2%R with (INR 2). rewrite npow_nat. cbn. repeat f_equal; ring.
    - cbn. unfold b_compress. cbn. do 2 apply f_equal; apply (f_equal2 cons); [field|reflexivity]. }
  unfold rom_project. rewrite E. cbn [bind]. apply decode_iff. eexists. eexists. split; [reflexivity|]. split; [reflexivity|]. cbn. unfold quad_unlift. cbn. do 2 apply f_equal; apply (f_equal2 cons); [field|reflexivity]. Qed.
Theorem project_not_idempotent : exists P n r a p p', trained_parts n r P /\ rp_lift P = Some quad_lifter /\ rom_project P a = Ok p /\ rom_project P p = Ok p' /\ p <> p'.
Proof. exists pP, 2, 1, (V [1]%R). do 2 eexists. split; [exact pP_trained|]. split; [reflexivity|]. split; [apply pP_project|]. split; [apply pP_project|]. intros K. injection K as K. lra. Qed.

(* a fit() that raises changes predictions: the transformer has been fitted to the new states already *)
Definition cs (mean : R) : tf := TSS {| ss_cent := true; ss_scaling := None; ss_byrow := false; ss_name := None; ss_n := Some 1; ss_mean := Some [mean]; ss_scale := None; ss_shift := None |}.
Definition cr (X : BasisModel.ext) (mean : R) : arom lib_t (lib_b X) (lib_m KDiscrete) := of_rom X KDiscrete {| rm_parts := {| rp_lift := None; rp_tf := Some (cs mean); rp_basis := None |}; rm_ddt := None; rm_model := dK1 |}.
Lemma cr_fit X : arom_fit lib_t (lib_b X) (lib_m KDiscrete) (model_fit X0) (cr X 2) (Single [[5; 7]]%R (Some (M [[1; 1]; [1; 1]]%R)) None) true true = (cr X 6, Err ValueError).
Proof. unfold arom_fit. cbn. f_equal. assert (E : vmean [5; 7]%R = 6%R) by (unfold vmean; rewrite !lsum_cons; change (lsum []) with 0%R; cbn [length INR]; field). rewrite E. reflexivity. Qed.
Lemma cr_predict X m x : apredict _ _ _ (cr X m) (2%Z, None) (V [x]) = Ok (M [[x; 3 * (x - m) + 2 + m]]%R).
Proof. unfold apredict. assert (E : aencode1 _ _ _ (cr X m) (V [x]) = Ok (V [x - m]%R)) by reflexivity. rewrite E. cbn [bind cr of_rom a_model lib_m cm_predict fst snd rm_model].
  assert (K : predict dK1 (V [x - m]%R) 2 None = Ok [[x - m; 3 * (x - m) + 2]]%R). { unfold predict. change (Z.to_nat 2) with 2. cbn. repeat (apply f_equal || apply (f_equal2 cons) || reflexivity || ring). }
  rewrite K. cbn. repeat (apply f_equal || apply (f_equal2 cons) || reflexivity || ring). Qed.
Theorem raising_fit_changes_predictions : forall X, exists LX k (r : arom lib_t (lib_b X) (lib_m k)) T (r' : arom lib_t (lib_b X) (lib_m k)) e args q0 Y Y', arom_fit lib_t (lib_b X) (lib_m k) (model_fit LX) r T true true = (r', Err e) /\
  lsx_ok LX /\ reach LX (a_model r) /\ a_model r' = a_model r /\ apredict _ _ _ r args q0 = Ok Y /\ apredict _ _ _ r' args q0 = Ok Y' /\ Y <> Y'.
Proof. intros X. exists X0, KDiscrete, (cr X 2). do 3 eexists. exists (2%Z, None), (V [4]%R). do 2 eexists. split; [apply cr_fit|]. split; [exact X0_ok|]. split; [exact dK1_reach|]. split; [reflexivity|].
  split; [apply cr_predict|]. split; [apply cr_predict|]. intros K. injection K as K. lra. Qed.
