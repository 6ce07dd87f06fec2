(* SaveOps.v -- proofs of C46 for operators, affine operators and interpolated operators. *)
From Coq Require Import String ZArith Lia Lra.
From Verif Require Import LinAlg MatAlg AffProofs InterpProofs.
From Verif Require Export SaveBasis.
#[local] Open Scope string_scope.
#[local] Open Scope nat_scope.
#[local] Open Scope list_scope.

(* ---- operators ------------------------------------------------------------------------------------------------------------- *)
Lemma op_make_id r m e : 0 < r -> wf_op r m e -> op_make (cls_of e) (op_dset e) = Ok e.
Proof. intros Hr H. destruct e; try reflexivity; cbn [cls_of op_make op_dset]; rewrite <- (construct_id r m _ Hr H); reflexivity. Qed.
Lemma op_class_name c : op_class (base_name c) = Ok c. Proof. destruct c as [| |[]| |]; reflexivity. Qed.
Lemma op_written o : SpecMono.valid_op o -> exists g, writes (op_events o) g /\ op_load (mo_cls o) g = Ok o /\ op_load_any g = Ok o.
Proof.
  intros V. destruct o as [c [e|]].
  - destruct (V e eq_refl) as [HC [r [m [Hr [_ HW]]]]]. cbn [mo_cls] in *. subst c.
    eexists. split; [do 2 eexists; split; reflexivity|].
    assert (L : op_load (cls_of e) (Grp [] [("meta", Dset [("class", AvS (base_name (cls_of e)))] (DV [])); ("entries", Dset [] (op_dset e))]) = Ok {| mo_cls := cls_of e; mo_ent := Some e |}).
    { unfold op_load. unfold check_class. cbn -[op_make op_dset base_name]. rewrite String.eqb_refl. cbn -[op_make op_dset base_name]. now rewrite (op_make_id r m). }
    split; [exact L|]. unfold op_load_any. cbn -[op_make op_dset base_name op_load op_class]. rewrite op_class_name. exact L.
  - eexists. split; [do 2 eexists; split; reflexivity|].
    assert (L : op_load c (Grp [] [("meta", Dset [("class", AvS (base_name c))] (DV []))]) = Ok {| mo_cls := c; mo_ent := None |}).
    { unfold op_load, check_class. cbn -[base_name]. now rewrite String.eqb_refl. }
    split; [exact L|]. unfold op_load_any. cbn -[op_make op_dset base_name op_load op_class]. rewrite op_class_name. exact L.
Qed.
Lemma op_back I o : SpecMono.valid_op o -> comes_back I (SvOp o) (op_load (mo_cls o)) o.
Proof. intros V. destruct (op_written o V) as [g [W [L _]]]. eapply comes_back_w; eauto. Qed.
Lemma base_name_inj c c' : base_name c = base_name c' -> c = c'.
Proof. intros H. pose proof (op_class_name c) as A. rewrite H, op_class_name in A. congruence. Qed.
(* the loader of another class refuses *)
Lemma op_other I o c : SpecMono.valid_op o -> c <> mo_cls o -> cannot_be_loaded I (SvOp o) (op_load c).
Proof.
  intros V N. assert (X : exists g, writes (op_events o) g /\ op_load c g = Err TypeError).
  { destruct o as [c0 [e|]]; cbn [mo_cls] in N; (eexists; split; [do 2 eexists; split; reflexivity|]); unfold op_load, check_class; cbn -[base_name];
      (destruct (String.eqb (base_name c) (base_name c0)) eqn:Q; [apply String.eqb_eq in Q; apply base_name_inj in Q; congruence|]); reflexivity. }
  destruct X as [g [W L]]. eapply not_loaded_w; eauto.
Qed.

(* ---- affine operators ---------------------------------------------------------------------------------------------------------- *)
Lemma as_term_op o : as_term (op_dset o) = Ok (entries2 o). Proof. destruct o; reflexivity. Qed.
Lemma group_writes nm evs g a m : assoc nm m = None -> writes evs g -> wexecs [EGroup nm evs] None (a, m) = ((a, m ++ [(nm, g)]), Done, None).
Proof. intros H [a' [l [-> E]]]. cbn [wexecs]. rewrite wexec_group. cbn [snd fst option_map]. now rewrite H, E. Qed.
Definition amembers (ops : list op) : list (str * node) := number (fun i => String.append "A" (dec i)) 0 (map (Dset []) (map op_dset ops)).
Lemma amembers_write ops : writes (edsets (fun i => String.append "A" (dec i)) (fun o => Some (op_dset o)) 0 ops) (Grp [] (amembers ops)).
Proof.
  do 2 eexists. split; [reflexivity|]. rewrite (edsets_writes (fun i => String.append "A" (dec i)) (fun o => Some (op_dset o)) ops (name_dec "A") (map op_dset ops)); auto.
  clear. induction ops; constructor; auto.
Qed.
Lemma amembers_read ops : ldsets (fun i => String.append "A" (dec i)) as_term (Grp [] (amembers ops)) 0 (length (amembers ops)) = Ok (map entries2 ops).
Proof.
  unfold amembers at 2. rewrite number_length, map_length.
  apply ldsets_reads with (ds := map op_dset ops); auto.
  - intros k d Hk. cbn [plus]. unfold dset, item. cbn [kids]. unfold amembers. replace k with (0 + k) by reflexivity.
    rewrite (number_get _ _ (name_dec "A")), nth_error_map, Hk. reflexivity.
  - clear. induction ops; constructor; auto. apply as_term_op.
Qed.
Definition ameta (a : aff) : node :=
  Dset (("class", AvS (aff_name (a_cls a))) :: match a_pdim a with Some p => [("parameter_dimension", AvI (Z.of_nat p))] | None => [] end ++ [("nterms", AvI (Z.of_nat (a_nterms a)))]) (DV []).
Definition anode (a : aff) : node :=
  Grp [] (("meta", ameta a) :: match a_entries a with Some ops => [("entries", Grp [] (amembers ops))] | None => [] end).
Ltac front := match goal with |- context [match wexecs ?l None ([], []) with _ => _ end] =>
  let x := eval cbn -[Z.of_nat aff_name base_name dim_of indices_dset] in (wexecs l None ([], [])) in change (wexecs l None ([], [])) with x end; cbv beta iota zeta.
Lemma aff_written a : writes (aff_events a) (anode a).
Proof.
  unfold aff_events, anode, ameta. destruct a as [c th n pd [ops|]]; cbn [a_cls a_pdim a_nterms a_entries].
  - do 2 eexists. split; [reflexivity|]. destruct pd as [p|]; cbn [when].
    + rewrite !app_assoc, wexecs_app. front.
      erewrite group_writes; [reflexivity|reflexivity|apply amembers_write].
    + rewrite app_nil_l, !app_assoc, wexecs_app. front.
      erewrite group_writes; [reflexivity|reflexivity|apply amembers_write].
  - do 2 eexists. split; [reflexivity|]. destruct pd as [p|]; reflexivity.
Qed.
Lemma check_class_meta s a d l b : check_class s (Grp b (("meta", Dset (("class", AvS s) :: a) d) :: l)) = Ok tt.
Proof. unfold check_class. cbn. now rewrite String.eqb_refl. Qed.
Lemma check_class_other s s' a d l b : s <> s' -> check_class s (Grp b (("meta", Dset (("class", AvS s') :: a) d) :: l)) = Err TypeError.
Proof. intros H. unfold check_class. cbn. destruct (String.eqb s s') eqn:Q; [apply String.eqb_eq in Q; congruence|reflexivity]. Qed.
(* the way load() reads it *)
Lemma aff_read a coeffs : aff_load (a_cls a) coeffs (anode a) =
  (do x <- aff_init (a_cls a) coeffs (Some (a_nterms a));
   do x <- match a_entries a with Some ops => aff_set x (map entries2 ops) | None => Ok x end;
   match a_pdim a with None => Ok x | Some p => aff_set_pdim p x end).
Proof.
  unfold aff_load, anode, ameta. rewrite check_class_meta. cbn [bind].
  replace (meta_attr "nterms" _) with (Ok (AvI (Z.of_nat (a_nterms a)))) by (destruct (a_pdim a); reflexivity). cbn [bind as_int]. rewrite Nat2Z.id.
  destruct (a_entries a) as [ops|].
  - replace (has "entries" _) with true by reflexivity. replace (item "entries" _) with (Ok (Grp [] (amembers ops))) by reflexivity.
    cbn [bind kids]. rewrite amembers_read. cbn [bind].
    destruct (aff_init _ _ _) as [x|e]; [|reflexivity]. cbn [bind]. destruct (aff_set x _) as [y|e]; [|reflexivity]. cbn [bind item kids assoc String.eqb Ascii.eqb Bool.eqb attrs_of].
    destruct (a_pdim a) as [p|]; cbn; [now rewrite Nat2Z.id|reflexivity].
  - cbn [has kids assoc String.eqb Ascii.eqb Bool.eqb bind item attrs_of].
    destruct (aff_init _ _ _) as [x|e]; [|reflexivity]. cbn [bind].
    destruct (a_pdim a) as [p|]; cbn; [now rewrite Nat2Z.id|reflexivity].
Qed.
Lemma aff_init_pdim c coeffs n a : (forall p, coeffs <> CInt p) -> aff_init c coeffs n = Ok a -> a_pdim a = None /\ a_entries a = None /\ a_cls a = c.
Proof. intros N. unfold aff_init. destruct (match n with Some 0 => true | _ => false end); [discriminate|]. destruct coeffs as [f|fs|p|]; try discriminate; [|intros H; inversion H; auto|exfalso; exact (N p eq_refl)].
  destruct n; [|discriminate]. intros H; inversion H; auto. Qed.
Lemma aff_set_sized r m a x ops : 0 < r -> affine_of r m a ops -> a_cls x = a_cls a -> a_nterms x = a_nterms a ->
  aff_set x (map entries2 ops) = Ok {| a_cls := a_cls x; a_theta := a_theta x; a_nterms := a_nterms x; a_pdim := a_pdim x; a_entries := Some ops |}.
Proof.
  intros Hr [E [F [L P]]] C N. unfold aff_set, aff_terms. rewrite C, N. rewrite (family_shapes r m (a_cls a)) by auto. rewrite map_length, L, Nat.eqb_refl.
  cbn [negb]. now rewrite (family_construct r m) by auto.
Qed.
Lemma aff_back I coeffs a : (forall p, coeffs <> CInt p) -> built_aff coeffs a -> sized_aff a -> comes_back I (SvAff a) (aff_load (a_cls a) coeffs) a.
Proof.
  intros N [a0 [H0 [HT HN]]] HS. apply (comes_back_w _ _ (anode a)); [apply aff_written|]. rewrite aff_read, H0. cbn [bind].
  destruct (aff_init_pdim _ _ _ _ N H0) as [P0 [E0 C0]]. destruct a0 as [c0 th0 n0 p0 e0]. cbn [a_cls a_theta a_nterms a_pdim a_entries] in *. subst.
  destruct HS as [HE|[r [m [ops [Hr HA]]]]].
  - rewrite HE. cbn [bind]. destruct a as [c th n [p|] e]; cbn in *; subst; reflexivity.
  - assert (HE := HA). destruct HE as [HE _]. rewrite HE. rewrite (aff_set_sized r m a) by auto. cbn [bind a_cls a_theta a_nterms a_pdim].
    destruct a as [c th n [p|] e]; cbn in *; subst; reflexivity.
Qed.
(* coeffs given as an int: the loader sets the parameter dimension a second time *)
Lemma aff_int_not I p a : built_aff (CInt p) a -> sized_aff a -> a_pdim a <> None -> cannot_be_loaded I (SvAff a) (aff_load (a_cls a) (CInt p)).
Proof.
  intros [a0 [H0 [HT HN]]] HS HP. apply (not_loaded_w _ _ (anode a) _ AttributeError); [apply aff_written|]. rewrite aff_read, H0. cbn [bind].
  assert (P0 : a_pdim a0 <> None /\ a_cls a0 = a_cls a).
  { unfold aff_init in H0. destruct (a_nterms a); [discriminate|]. destruct p; [discriminate|]. inversion H0; subst; split; [discriminate|reflexivity]. }
  destruct P0 as [P0 C0]. destruct (a_pdim a) as [q|]; [|congruence].
  destruct HS as [HE|[r [m [ops [Hr HA]]]]].
  - rewrite HE. cbn [bind]. unfold aff_set_pdim. destruct (a_pdim a0); [reflexivity|congruence].
  - assert (HE := HA). destruct HE as [HE _]. rewrite HE. rewrite (aff_set_sized r m a) by auto. cbn [bind]. unfold aff_set_pdim. cbn. destruct (a_pdim a0); [reflexivity|congruence].
Qed.

(* ---- interpolated operators ------------------------------------------------------------------------------------------------------ *)
Lemma params_scalar xs : xs <> [] -> params_of (params_dset (map PS xs)) = Ok (map PS xs).
Proof. intros _. unfold params_dset. rewrite scalars_all. cbn. now rewrite unscalar_all. Qed.
(* what set_training_parameters stores *)
Lemma params_stored c ic ps t : i_set_params (i_new c ic) ps = Ok t -> exists qs, i_params t = Some qs /\ qs <> [] /\ params_of (params_dset qs) = Ok qs /\
  (forall ic', i_set_params (i_new c ic') qs = Ok {| i_cls := c; i_pdim := i_pdim t; i_params := Some qs; i_entries := None; i_interp := None; i_iclass := ic' |}) /\
  t = {| i_cls := c; i_pdim := i_pdim t; i_params := Some qs; i_entries := None; i_interp := None; i_iclass := ic |}.
Proof.
  unfold i_set_params at 1. cbn [i_new i_interp]. destruct ps as [|p0 ps0]; [discriminate|]. remember (p0 :: ps0) as ps eqn:EP.
  destruct (forallb (fun p => (pndim p =? pndim p0) && (plen p =? plen p0)) ps) eqn:F; [|discriminate]. cbn [negb].
  rewrite forallb_forall in F. destruct (plen p0 =? 1) eqn:Q; intros H; inversion H; subst t; cbn [i_params i_pdim]; eexists; (split; [reflexivity|]).
  - assert (EM : map (fun p => PS (unscalar p)) ps = map PS (map unscalar ps)) by (rewrite map_map; reflexivity). rewrite EM.
    assert (NE : map PS (map unscalar ps) <> []) by (rewrite EP; discriminate).
    split; [auto|]. split; [apply params_scalar; rewrite EP; discriminate|]. split; [|reflexivity].
    intros ic'. unfold i_set_params. cbn [i_new i_interp]. destruct (map PS (map unscalar ps)) as [|q0 qs0] eqn:EQ; [congruence|].
    assert (Q0 : exists x, q0 = PS x). { destruct ps; [discriminate|]. cbn in EQ. inversion EQ; eauto. }
    destruct Q0 as [x0 ->]. rewrite <- EQ. cbn [pndim plen]. replace (forallb _ (map PS (map unscalar ps))) with true.
    + cbn [negb Nat.eqb]. rewrite map_map. cbn. apply Nat.eqb_eq in Q. now rewrite Q.
    + symmetry. apply forallb_forall. intros p Hp. apply in_map_iff in Hp. destruct Hp as [y [<- _]]. reflexivity.
  - split; [rewrite EP; discriminate|].
    assert (AV : forall p, In p ps -> exists v, p = PV v).
    { intros p Hp. specialize (F p Hp). apply andb_true_iff in F. destruct F as [F1 F2]. apply Nat.eqb_eq in F1, F2. apply Nat.eqb_neq in Q.
      destruct p as [x|v]; [|eauto]. cbn in F2. congruence. }
    split; [|split].
    + unfold params_dset. replace (forallb is_scalar ps) with false.
      * cbn. f_equal. rewrite map_map. rewrite <- (map_id ps) at 2. apply map_ext_in. intros p Hp. destruct (AV p Hp) as [v ->]. reflexivity.
      * symmetry. rewrite EP. cbn. destruct (AV p0) as [v ->]; [rewrite EP; left; auto|reflexivity].
    + intros ic'. unfold i_set_params. cbn [i_new i_interp]. rewrite EP at 1.
      replace (forallb (fun p => (pndim p =? pndim p0) && (plen p =? plen p0)) ps) with true by (symmetry; apply forallb_forall; exact F).
      cbn [negb]. now rewrite Q.
    + reflexivity.
Qed.
Definition imeta I (t : itp) : node := Dset [("class", AvS (itp_name (i_cls t))); ("InterpolatorClass", AvS (class_attr I (i_iclass t)))] (DV []).
Definition inode I (t : itp) : node :=
  Grp [] (("meta", imeta I t) :: match i_params t with Some ps => [("training_parameters", Dset [] (params_dset ps))] | None => [] end
          ++ match i_entries t with Some ops => [("entries", Dset [] (DT (map entries2 ops)))] | None => [] end).
Lemma itp_written I t : writes (itp_events I t) (inode I t).
Proof. unfold itp_events, inode, imeta. destruct t as [c pd [ps|] [ops|] f ic]; (do 2 eexists; split; [reflexivity|]); reflexivity. Qed.
Lemma itp_read X I arg t : itp_load X I (i_cls t) arg (inode I t) =
  (do ic <- find_class I arg (class_attr I (i_iclass t));
   do t1 <- match i_params t with Some ps => do qs <- params_of (params_dset ps); i_set_params (i_new (i_cls t) ic) qs | None => Ok (i_new (i_cls t) ic) end;
   match i_entries t with
   | Some ops => match i_set (px_cubic X) (px_linnd X) t1 (map entries2 ops) with (t', Ok _) => Ok t' | (_, Err e) => Err e end
   | None => Ok t1
   end).
Proof.
  unfold itp_load, inode, imeta. rewrite check_class_meta. cbn [bind].
  replace (meta_attr "InterpolatorClass" _) with (Ok (AvS (class_attr I (i_iclass t)))) by reflexivity. cbn [bind as_str].
  destruct (find_class I arg (class_attr I (i_iclass t))) as [ic|e]; [|reflexivity]. cbn [bind].
  destruct (i_params t) as [ps|].
  - replace (has "training_parameters" _) with true by reflexivity. replace (dset "training_parameters" _) with (Ok (params_dset ps)) by reflexivity. cbn [bind].
    destruct (params_of (params_dset ps)) as [qs|e]; [|reflexivity]. cbn [bind]. destruct (i_set_params _ qs) as [t1|e]; [|reflexivity]. cbn [bind].
    destruct (i_entries t) as [ops|]; reflexivity.
  - replace (has "training_parameters" _) with false by (destruct (i_entries t); reflexivity). cbn [bind].
    destruct (i_entries t) as [ops|]; reflexivity.
Qed.
Lemma finds_class I arg C : finds I arg C -> find_class I arg (si_name I C) = Ok (Some C).
Proof. unfold find_class. intros [->|[-> H]]; [auto|now rewrite H]. Qed.
(* a class that scipy.interpolate does not have has to be passed to load() *)
Lemma itp_unknown_class X I C t : i_iclass t = Some C -> si_attr I (si_name I C) = None -> si_name I C <> "NoneType"%string -> cannot_be_loaded I (SvItp t) (itp_load X I (i_cls t) None).
Proof.
  intros HC HN HS. apply (not_loaded_w _ _ (inode I t) _ ValueError); [apply itp_written|]. rewrite itp_read, HC. cbn [class_attr]. unfold find_class. rewrite HN.
  destruct (String.eqb_spec (si_name I C) "NoneType"); [contradiction|]. reflexivity.
Qed.
(* before any entries *)
Lemma itp_new_back X I c arg ic : match ic with Some C => finds I arg C | None => arg = None /\ si_attr I "NoneType" = None end ->
  comes_back I (SvItp (i_new c ic)) (itp_load X I c arg) (i_new c ic).
Proof.
  intros H. apply (comes_back_w _ _ (inode I (i_new c ic))); [apply itp_written|].
  change c with (i_cls (i_new c ic)) at 1. rewrite itp_read. cbn [i_new i_iclass i_params i_entries i_cls].
  assert (F : find_class I arg (class_attr I ic) = Ok ic).
  { destruct ic as [C|]; [now apply finds_class|]. destruct H as [-> H]. cbn. now rewrite H. }
  rewrite F. reflexivity.
Qed.
Lemma itp_params_back X I c arg ic ps t : match ic with Some C => finds I arg C | None => arg = None /\ si_attr I "NoneType" = None end ->
  i_set_params (i_new c ic) ps = Ok t -> comes_back I (SvItp t) (itp_load X I c arg) t.
Proof.
  intros H HP. destruct (params_stored _ _ _ _ HP) as [qs [EQ [_ [PQ [SQ ET]]]]].
  apply (comes_back_w _ _ (inode I t)); [apply itp_written|].
  assert (C0 : i_cls t = c) by (rewrite ET; reflexivity). assert (I0 : i_iclass t = ic) by (rewrite ET; reflexivity). assert (E0 : i_entries t = None) by (rewrite ET; reflexivity).
  rewrite <- C0 at 1. rewrite itp_read, C0, I0, E0, EQ, PQ.
  assert (F : find_class I arg (class_attr I ic) = Ok ic).
  { destruct ic as [C|]; [now apply finds_class|]. destruct H as [-> H]. cbn. now rewrite H. }
  rewrite F. cbn [bind]. rewrite SQ. cbn [bind]. now rewrite <- ET.
Qed.
(* with entries: the stored class is built again, from the stored parameters in the stored order *)
Lemma itp_full X I c arg C ps t t0 ic qs ops f r m : finds I arg C -> i_set_params (i_new c ic) ps = Ok t0 -> i_params t0 = Some qs ->
  i_cls t = c -> i_pdim t = i_pdim t0 -> i_params t = Some qs -> i_entries t = Some ops -> i_iclass t = Some C -> i_interp t = Some f ->
  0 < r -> SpecParam.family r m c ops -> length ops = length qs ->
  (C qs (map entries2 ops) = Ok f -> comes_back I (SvItp t) (itp_load X I c arg) t) /\
  (forall e, C qs (map entries2 ops) = Err e -> cannot_be_loaded I (SvItp t) (itp_load X I c arg)).
Proof.
  intros HF HP Q0 HC HD HQ HE HI HN Hr FA HL.
  destruct (params_stored _ _ _ _ HP) as [qs' [EQ [_ [PQ [SQ ET]]]]]. assert (qs' = qs) by congruence. subst qs'.
  assert (R : itp_load X I c arg (inode I t) = match C qs (map entries2 ops) with
     | Ok f => Ok {| i_cls := c; i_pdim := i_pdim t0; i_params := Some qs; i_entries := Some ops; i_interp := Some f; i_iclass := Some C |} | Err e => Err e end).
  { rewrite <- HC at 1. rewrite itp_read, HC, HI, HQ, HE, PQ. cbn [class_attr]. rewrite (finds_class _ _ _ HF). cbn [bind]. rewrite SQ. cbn [bind].
    unfold i_set. cbn [i_params i_cls i_iclass i_pdim i_interp]. rewrite (family_shapes r m c) by auto. cbn [negb]. rewrite map_length, HL, Nat.eqb_refl. cbn [negb].
    rewrite (family_construct r m) by auto. unfold i_set_interp. cbn [i_params i_cls i_iclass i_pdim i_interp i_entries]. destruct (C qs (map entries2 ops)); reflexivity. }
  split.
  - intros E. apply (comes_back_w _ _ (inode I t)); [apply itp_written|]. rewrite R, E. destruct t; cbn in *; congruence.
  - intros e E. apply (not_loaded_w _ _ (inode I t) _ e); [apply itp_written|]. now rewrite R, E.
Qed.
Lemma argsort_inc xs : strictly_inc xs -> argsort xs = seq 0 (length xs).
Proof.
  intros H. unfold argsort. assert (K : forall n i, i + n = length xs -> fold_right (ins (vget xs)) [] (seq i n) = seq i n).
  { induction n as [|n IH]; intros i E; [auto|]. cbn [seq fold_right]. rewrite IH by lia. destruct n; [reflexivity|]. cbn [seq ins].
    destruct (Rle_dec (vget xs i) (vget xs (S i))) as [|N]; [reflexivity|]. exfalso. apply N. left. apply H; lia. }
  apply K. reflexivity.
Qed.
Lemma take_at_seq {A} (d : A) l : take_at d l (seq 0 (length l)) = l.
Proof.
  unfold take_at. apply (nth_ext _ _ d d).
  - now rewrite map_length, seq_length.
  - intros k Hk. rewrite map_length, seq_length in Hk. rewrite (nth_map_in _ _ _ _ 0) by (rewrite seq_length; lia). now rewrite seq_nth by lia.
Qed.
(* what the constructor leaves *)
Lemma i_init_inv cu li c ps Es ic t : i_init cu li c ps Es ic = Ok t -> exists t0 qs ops f C, i_set_params (i_new c ic) ps = Ok t0 /\ i_params t0 = Some qs /\
  i_cls t = c /\ i_pdim t = i_pdim t0 /\ i_params t = Some qs /\ i_entries t = Some ops /\ i_iclass t = Some C /\ i_interp t = Some f /\ length ops = length qs /\
  match ic with
  | Some C' => C = C' /\ C qs (map entries2 ops) = Ok f
  | None => if forallb is_scalar qs then C = cu /\ cu (take_at (PS 0) qs (argsort (map unscalar qs))) (take_at [] (map entries2 ops) (argsort (map unscalar qs))) = Ok f
            else C = li /\ li qs (map entries2 ops) = Ok f
  end.
Proof.
  unfold i_init. destruct (i_set_params (i_new c ic) ps) as [t0|] eqn:E0; [|discriminate]. cbn [bind].
  destruct (params_stored _ _ _ _ E0) as [qs [EQ [_ [PQ [SQ ET]]]]]. unfold i_set. rewrite EQ. destruct (same_shapes Es); [|discriminate]. cbn [negb].
  destruct (length Es =? length qs) eqn:L; [|discriminate]. cbn [negb]. rewrite ET. cbn [i_cls i_iclass i_pdim i_params i_interp].
  destruct (mapM (construct c) Es) as [ops|] eqn:EM; [|discriminate]. unfold i_set_interp. cbn [i_entries i_params i_cls i_pdim].
  assert (LO : length ops = length qs).
  { apply Nat.eqb_eq in L. rewrite <- L. apply mapM_Forall2 in EM. symmetry. clear -EM. induction EM; simpl; auto. }
  destruct ic as [C'|].
  - destruct (C' qs (map entries2 ops)) as [f|] eqn:EC; [|discriminate]. intros H; inversion H; subst t. exists t0, qs, ops, f, C'. cbn. repeat split; auto; try (now rewrite <- ET); rewrite ?S0; auto.
  - destruct (forallb is_scalar qs) eqn:S0.
    + destruct (cu _ _) as [f|] eqn:EC; [|discriminate]. intros H; inversion H; subst t. exists t0, qs, ops, f, cu. cbn. repeat split; auto; try (now rewrite <- ET); rewrite ?S0; auto.
    + destruct (li _ _) as [f|] eqn:EC; [|discriminate]. intros H; inversion H; subst t. exists t0, qs, ops, f, li. cbn. repeat split; auto; try (now rewrite <- ET); rewrite ?S0; auto.
Qed.
Lemma all_scalars qs : forallb is_scalar qs = true -> qs = map PS (map unscalar qs).
Proof. induction qs as [|q qs IH]; cbn; intros H; [auto|]. destruct q; [|discriminate]. cbn in H. cbn. now rewrite <- IH. Qed.
Lemma itp_back X I c arg ic C ps Es t : i_init (px_cubic X) (px_linnd X) c ps Es ic = Ok t -> sized_itp t -> i_iclass t = Some C -> finds I arg C ->
  (ic = None -> in_order t) -> comes_back I (SvItp t) (itp_load X I c arg) t.
Proof.
  intros H HS HC HF HO. destruct (i_init_inv _ _ _ _ _ _ _ H) as [t0 [qs [ops [f [C' [H0 [Q0 [A1 [A2 [A3 [A4 [A5 [A6 [A7 A8]]]]]]]]]]]]]].
  assert (C' = C) by congruence. subst C'. destruct (HS ops A4) as [r [m [Hr FA]]]. rewrite A1 in FA.
  apply (itp_full X I c arg C ps t t0 ic qs ops f r m); auto. destruct ic as [C'|]; [destruct A8 as [<- A8]; exact A8|]. destruct (forallb is_scalar qs) eqn:S0; [|destruct A8 as [-> A8]; exact A8].
  destruct A8 as [-> A8]. pose proof (all_scalars _ S0) as QS. specialize (HO eq_refl (map unscalar qs)). rewrite A3 in HO. rewrite (argsort_inc (map unscalar qs)) in A8 by (apply HO; congruence).
  rewrite map_length in A8. rewrite take_at_seq in A8. rewrite <- A7 in A8. rewrite <- (map_length entries2 ops) in A8. rewrite take_at_seq in A8.
  destruct A8. auto.
Qed.
(* default interpolation over parameters out of order *)
Lemma itp_unsorted X I c arg xs ops t r m : (forall xs es, ~ strictly_inc xs -> px_cubic X (map PS xs) es = Err ValueError) ->
  i_init (px_cubic X) (px_linnd X) c (map PS xs) (map entries2 ops) None = Ok t -> 0 < r -> SpecParam.family r m c ops -> ~ strictly_inc xs -> finds I arg (px_cubic X) ->
  cannot_be_loaded I (SvItp t) (itp_load X I c arg).
Proof.
  intros HX H Hr FA NI HF. destruct (i_init_inv _ _ _ _ _ _ _ H) as [t0 [qs [ops' [f [C' [H0 [Q0 [A1 [A2 [A3 [A4 [A5 [A6 [A7 A8]]]]]]]]]]]]]].
  assert (EQ : qs = map PS xs).
  { unfold i_set_params in H0. cbn [i_new i_interp] in H0. destruct xs as [|x0 xs0]; [discriminate|]. cbn [map] in H0. change (PS x0 :: map PS xs0) with (map PS (x0 :: xs0)) in H0.
    destruct (forallb _ _); [|discriminate]. cbn [negb plen Nat.eqb] in H0. inversion H0; subst t0. cbn in Q0. inversion Q0. rewrite map_map. reflexivity. }
  subst qs. rewrite scalars_all in A8. destruct A8 as [-> _].
  assert (EO : ops' = ops).
  { unfold i_init in H. rewrite H0 in H. cbn [bind] in H. unfold i_set in H. rewrite Q0 in H. destruct (same_shapes _); [|discriminate]. cbn [negb] in H. destruct (_ =? _); [|discriminate]. cbn [negb] in H.
    assert (CC : i_cls t0 = c) by (destruct (params_stored _ _ _ _ H0) as [? [? [? [? [? ET]]]]]; rewrite ET; reflexivity).
    rewrite CC, (family_construct r m) in H by auto. unfold i_set_interp in H. cbn [i_entries i_params] in H. rewrite ?Q0 in H. destruct (i_iclass t0).
    - destruct (i (map PS xs) _); inversion H; subst t. cbn in A4. congruence.
    - rewrite scalars_all in H. destruct (px_cubic X _ _); inversion H; subst t. cbn in A4. congruence. }
  subst ops'. apply (itp_full X I c arg (px_cubic X) (map PS xs) t t0 None (map PS xs) ops f r m) with (e := ValueError); auto.
Qed.
