(* EntriesProofs.v -- lemmas about EntriesModel.v *)
From Verif Require Import LinAlg MatAlg SpecOps TupleLemmas TupleProofs TupleFinal OpsProofs JacProofs.
From Verif Require Export EntriesModel SpecObj.
#[local] Open Scope nat_scope.

(* ---- specification: which shapes each class admits ---------------------------------------------- *)
Definition admissible (c : cls) (sh : list nat) : Prop :=
  match c with
  | CConst => (exists n, sh = [n]) \/ (exists n, sh = [1; n] \/ sh = [n; 1])
  | CLin => sh = [1] \/ exists n, sh = [n; n]
  | CPoly d => sh = [1] \/ (exists r, sh = repeat r (S (deg d))) \/
               (exists r, sh = [r; r ^ deg d] \/ sh = [r; operator_dimension d r])
  | CInp => (exists n, sh = [n]) \/ exists r m, sh = [r; m]
  | CStIn => sh = [1] \/ exists r m, 0 < r /\ sh = [r; r * m]
  end.
Definition all_finite (a : nd) : Prop := forall x, In x (data a) -> exists r, x = Fin r.

Lemma fins_some l : (forall x, In x l -> exists r, x = Fin r) <-> exists v, fins l = Some v.
Proof. induction l as [|x l IH]; cbn [fins].
  - split; eauto. intros _ x [].
  - split.
    + intros H. destruct (H x (or_introl eq_refl)) as [r ->]. destruct (proj1 IH) as [v ->]; [|cbn; eauto].
      intros y Hy. apply H. right; auto.
    + intros [v Hv]. destruct x as [r| |]; cbn in Hv; try discriminate. destruct (fins l) as [w|] eqn:E; [|discriminate].
      intros y [<-|Hy]; [eauto|]. apply (proj2 IH); eauto. Qed.
Lemma fins_length l v : fins l = Some v -> length v = length l.
Proof. revert v. induction l as [|x l IH]; cbn [fins]; intros v H; [injection H as <-; auto|].
  destruct (fin_of x); [|discriminate]. destruct (fins l); [|discriminate]. injection H as <-. cbn. f_equal. apply IH. auto. Qed.
Lemma fins_nth l v i : fins l = Some v -> i < length l -> nth i l NaN = Fin (vget v i).
Proof. revert v i. induction l as [|x l IH]; cbn [fins]; intros v i H Hi; [simpl in Hi; lia|].
  destruct (fin_of x) as [r|] eqn:Ex; [|discriminate]. destruct (fins l) as [w|]; [|discriminate]. injection H as <-.
  destruct i; cbn.
  - destruct x; cbn in Ex; try discriminate. injection Ex as ->. reflexivity.
  - rewrite (IH w) by (auto; simpl in Hi; lia). reflexivity. Qed.

Lemma rows_of_shape r c v : length v = r * c -> is_mat r c (rows_of r c v).
Proof. revert v. induction r as [|r IH]; intros v H; cbn [rows_of]; [apply is_mat_nil|].
  destruct (IH (skipn c v)) as [H1 H2]; [rewrite skipn_length; simpl in H; lia|].
  split; [cbn; auto|]. constructor; auto. rewrite firstn_length. simpl in H. lia. Qed.
Lemma rows_of_get r c v i j : i < r -> j < c -> mget (rows_of r c v) i j = vget v (i * c + j).
Proof. revert v i. induction r as [|r IH]; intros v i Hi Hj; [lia|]. cbn [rows_of]. destruct i as [|i].
  - unfold mget. cbn [nth]. unfold vget. rewrite <- (firstn_skipn c v) at 2.
    destruct (Nat.lt_ge_cases j (length v)).
    + rewrite app_nth1 by (rewrite firstn_length; lia). reflexivity.
    + rewrite !nth_overflow; auto; [rewrite firstn_skipn; simpl; lia|rewrite firstn_length; lia].
  - unfold mget in *. cbn [nth]. rewrite IH by lia. unfold vget. rewrite <- (firstn_skipn c v) at 2.
    destruct (Nat.le_gt_cases c (length v)).
    + rewrite app_nth2; rewrite firstn_length; [f_equal; simpl; lia|simpl; lia].
    + rewrite (skipn_all2 v) by lia. rewrite app_nil_r. rewrite !nth_overflow; auto; [rewrite firstn_length; simpl; lia|simpl; lia]. Qed.

Lemma all_equal_repeat sh n : length sh = S n -> (all_equal sh = true <-> exists r, sh = repeat r (S n)).
Proof. destruct sh as [|a t]; [discriminate|]. intros H. injection H as H. cbn [all_equal]. split.
  - intros K. exists a. cbn. f_equal. revert n H. induction t as [|b t IH]; intros n H; [destruct n; [auto|discriminate]|].
    destruct n; [discriminate|]. cbn in *. apply andb_true_iff in K. destruct K as [K1 K2].
    apply Nat.eqb_eq in K1. subst b. f_equal. apply IH; auto.
  - intros [r K]. cbn in K. injection K as -> ->. apply forallb_forall. intros x Hx. apply repeat_spec in Hx. subst. apply Nat.eqb_refl. Qed.

Lemma repeat_prod r n : fold_right Nat.mul 1 (repeat r n) = r ^ n.
Proof. induction n; cbn; auto. Qed.

(* what atleast_2d does to an array *)
Definition norm (a : nd) : nd := match shape a with [1] => {| shape := [1; 1]; data := data a |} | _ => a end.
Lemma atleast_2d_norm a : atleast_2d_raw (Array a) = Array (norm a).
Proof. unfold atleast_2d_raw, norm. cbn. destruct (shape a) as [|[|[|k]] [|? ?]]; reflexivity. Qed.
Lemma norm_data a : data (norm a) = data a.
Proof. unfold norm. destruct (shape a) as [|[|[|k]] [|? ?]]; reflexivity. Qed.
Lemma norm_nd a : is_nd a -> is_nd (norm a).
Proof. unfold norm, is_nd. destruct (shape a) as [|[|[|k]] [|? ?]] eqn:E; rewrite ?E; auto. Qed.
Lemma norm_shape a : (shape a = [1] /\ shape (norm a) = [1; 1]) \/ (shape a <> [1] /\ shape (norm a) = shape a).
Proof. unfold norm. destruct (shape a) as [|[|[|k]] [|? ?]] eqn:E; rewrite ?E; auto; right; split; auto; discriminate. Qed.

Ltac no := let K := fresh in let z := fresh "s" in split; [intros [z K]; discriminate K|intros [_ K]; exfalso].

(* set_entries accepts exactly finite arrays of an admissible shape *)
Lemma set_entries_iff c a : is_nd a ->
  ((exists s, set_entries c (Array a) = Ok s) <-> (all_finite a /\ admissible c (shape a))).
Proof. intros Hnd. unfold all_finite.
  destruct (fins (data a)) as [v|] eqn:Ef.
  2:{ split.
      - intros [s K]. exfalso. destruct c; cbn [set_entries] in K; rewrite ?atleast_2d_norm in K; cbn [atleast validate bind] in K;
        rewrite ?norm_data, Ef in K; discriminate.
      - intros [K _]. apply fins_some in K. destruct K; congruence. }
  assert (F : forall x, In x (data a) -> exists r, x = Fin r) by (apply fins_some; eauto).
  assert (Hn := norm_nd a Hnd). pose proof (norm_shape a) as HS.
  destruct c; cbn [set_entries]; rewrite ?atleast_2d_norm; cbn [atleast validate]; rewrite ?norm_data, ?Ef; cbn [bind]; rewrite ?norm_data, ?Ef.
  - clear HS Hn. destruct (shape a) as [|p [|q [|? ?]]]; cbn [admissible].
    + no. destruct H as [[? K]|[? [K|K]]]; discriminate.
    + split; eauto.
    + destruct (Nat.eqb_spec p 1) as [->|Hp]; cbn [orb]; [split; [intros _; split; eauto|eauto]|].
      destruct (Nat.eqb_spec q 1) as [->|Hq]; [split; [intros _; split; eauto|eauto]|].
      no. destruct H as [[? K]|[? [K|K]]]; [discriminate| |]; injection K; intros; subst; tauto.
    + no. destruct H as [[? K]|[? [K|K]]]; discriminate.
  - assert (E : (exists s, shape (norm a) = [s; s]) <-> admissible CLin (shape a)).
    { cbn. destruct HS as [[E1 E2]|[E1 E2]]; rewrite E2; [split; eauto|]. split; [eauto|]. intros [K|K]; [congruence|auto]. }
    destruct (shape (norm a)) as [|p [|q [|? ?]]] eqn:ES.
    + no. apply E in H. destruct H; discriminate.
    + no. apply E in H. destruct H; discriminate.
    + destruct (Nat.eqb_spec p q) as [->|Hpq].
      * split; [|eauto]. intros _. split; auto. apply E. eauto.
      * no. apply E in H. destruct H as [s H]. injection H as -> ->. tauto.
    + no. apply E in H. destruct H; discriminate.
  - set (sh := if (length (shape (norm a)) =? S (deg d)) && all_equal (shape (norm a))
               then [hd 0 (shape (norm a)); hd 0 (shape (norm a)) ^ deg d] else shape (norm a)).
    assert (E : (exists r, sh = [r; r ^ deg d] \/ sh = [r; operator_dimension d r]) <-> admissible (CPoly d) (shape a)).
    { unfold sh. cbn [admissible]. destruct HS as [[E1 E2]|[E1 E2]]; rewrite E2.
      - split; auto. intros _. exists 1. left. destruct d; reflexivity.
      - destruct (Nat.eqb_spec (length (shape a)) (S (deg d))) as [El|El]; cbn [andb].
        + destruct (all_equal (shape a)) eqn:Ea.
          * split; [|intros _; exists (hd 0 (shape a)); auto]. intros _. right; left. apply all_equal_repeat; auto.
          * split; [auto|]. intros [K|[K|K]]; auto; [congruence|]. apply (all_equal_repeat _ _ El) in K. congruence.
        + split; [auto|]. intros [K|[[r K]|K]]; auto; [congruence|]. rewrite K, repeat_length in El. lia. }
    assert (HL : length v = fold_right Nat.mul 1 sh).
    { rewrite (fins_length _ _ Ef). unfold is_nd in Hn. rewrite norm_data in Hn. rewrite Hn. unfold sh.
      destruct (Nat.eqb_spec (length (shape (norm a))) (S (deg d))) as [El|El]; cbn [andb]; auto.
      destruct (all_equal (shape (norm a))) eqn:Ea; auto. apply (all_equal_repeat _ _ El) in Ea. destruct Ea as [r Ea].
      rewrite Ea, repeat_prod. cbn. lia. }
    destruct sh as [|r [|w [|? ?]]].
    + no. apply E in H. destruct H as [? [K|K]]; discriminate.
    + no. apply E in H. destruct H as [? [K|K]]; discriminate.
    + destruct (Nat.eqb_spec w (r ^ deg d)) as [Ew|Ew].
      * assert (Hc : exists H, compress d (rows_of r w v) = Ok H).
        { destruct r as [|r].
          - cbn [rows_of]. eexists. apply (compress_ok d 0). cbn. destruct d; reflexivity.
          - rewrite (compress_ok d (S r)); eauto. rewrite <- Ew. apply (ncols_is_mat (S r)); [|lia]. apply rows_of_shape.
            rewrite HL. cbn. lia. }
        destruct Hc as [H ->]. split; [|eauto]. intros _. split; auto. apply E. exists r. left. rewrite Ew; auto.
      * destruct (Nat.eqb_spec w (operator_dimension d r)) as [Ew'|Ew'].
        { split; [|eauto]. intros _. split; auto. apply E. exists r. right. congruence. }
        { no. apply E in H. destruct H as [r' [K|K]]; injection K as -> ->; tauto. }
    + no. apply E in H. destruct H as [? [K|K]]; discriminate.
  - assert (E : ((exists n, shape (norm a) = [n]) \/ exists r m, shape (norm a) = [r; m]) <-> admissible CInp (shape a)).
    { cbn. destruct HS as [[E1 E2]|[E1 E2]]; rewrite E2; [|tauto]. split; eauto 6. }
    destruct (shape (norm a)) as [|p [|q [|? ?]]] eqn:ES.
    + no. apply E in H. destruct H as [[? K]|[? [? K]]]; discriminate.
    + split; eauto. intros _. split; auto. apply E. eauto.
    + split; eauto. intros _. split; auto. apply E. eauto.
    + no. apply E in H. destruct H as [[? K]|[? [? K]]]; discriminate.
  - assert (E : (exists r m, 0 < r /\ shape (norm a) = [r; r * m]) <-> admissible CStIn (shape a)).
    { cbn. destruct HS as [[E1 E2]|[E1 E2]]; rewrite E2.
      - split; eauto. intros _. exists 1, 1. auto.
      - split; [eauto|]. intros [K|K]; [congruence|auto]. }
    destruct (shape (norm a)) as [|p [|q [|? ?]]] eqn:ES.
    + no. apply E in H. destruct H as [? [? [_ K]]]; discriminate.
    + no. apply E in H. destruct H as [? [? [_ K]]]; discriminate.
    + destruct (Nat.eqb_spec p 0) as [->|Hp].
      { no. apply E in H. destruct H as [? [? [K1 K]]]. injection K as <- _. lia. }
      destruct (Nat.eqb_spec q (p * (q / p))) as [Eq|Eq].
      * split; eauto. intros _. split; auto. apply E. exists p, (q / p). rewrite <- Eq. split; auto. lia.
      * no. apply E in H. destruct H as [r [m [K1 K]]]. injection K as <- ->. apply Eq.
        rewrite (Nat.mul_comm p m), Nat.div_mul by lia. apply Nat.mul_comm.
    + no. apply E in H. destruct H as [? [? [_ K]]]; discriminate.
Qed.

(* ---- what is stored ------------------------------------------------------------------------------ *)
(* array v of the given shape holds finite values xs *)
Definition holds (a : nd) (sh : list nat) (v : vec) : Prop :=
  shape a = sh /\ data a = map Fin v /\ length v = fold_right Nat.mul 1 sh.
Lemma fins_Fin v : fins (map Fin v) = Some v.
Proof. induction v; cbn; auto. rewrite IHv. reflexivity. Qed.
Lemma holds_nd a sh v : holds a sh v -> is_nd a.
Proof. intros [H1 [H2 H3]]. unfold is_nd. rewrite H1, H2, map_length. auto. Qed.

Lemma stored_const a n v : holds a [n] v -> set_entries CConst (Array a) = Ok (Dense (OConst v)).
Proof. intros [H1 [H2 H3]]. cbn. rewrite H2, fins_Fin. cbn. rewrite H2, fins_Fin, H1. reflexivity. Qed.

Lemma stored_linear a n v : holds a [n; n] v -> exists A, set_entries CLin (Array a) = Ok (Dense (OLin A)) /\
  is_mat n n A /\ forall i j, i < n -> j < n -> mget A i j = vget v (i * n + j).
Proof. intros [H1 [H2 H3]]. exists (rows_of n n v). split; [|split].
  - cbn [set_entries]. rewrite atleast_2d_norm. cbn [validate]. rewrite norm_data, H2, fins_Fin. cbn [bind].
    assert (norm a = a) as -> by (unfold norm; rewrite H1; destruct n as [|[|n]]; reflexivity).
    rewrite H1, Nat.eqb_refl, H2, fins_Fin. reflexivity.
  - apply rows_of_shape. rewrite H3. cbn. lia.
  - intros. apply rows_of_get; auto. Qed.

Lemma stored_input a r m v : holds a [r; m] v -> exists B, set_entries CInp (Array a) = Ok (Dense (OInp B)) /\
  is_mat r m B /\ forall i j, i < r -> j < m -> mget B i j = vget v (i * m + j).
Proof. intros [H1 [H2 H3]]. exists (rows_of r m v). split; [|split].
  - cbn [set_entries]. rewrite atleast_2d_norm. cbn [validate]. rewrite norm_data, H2, fins_Fin. cbn [bind].
    assert (norm a = a) as -> by (unfold norm; rewrite H1; destruct r as [|[|n]]; reflexivity).
    rewrite H1, H2, fins_Fin. reflexivity.
  - apply rows_of_shape. rewrite H3. cbn. lia.
  - intros. apply rows_of_get; auto. Qed.

Lemma stored_stateinput a r m v : 0 < r -> holds a [r; r * m] v -> exists N, set_entries CStIn (Array a) = Ok (Dense (OStIn N)) /\
  is_mat r (r * m) N /\ forall i j, i < r -> j < r * m -> mget N i j = vget v (i * (r * m) + j).
Proof. intros Hr [H1 [H2 H3]]. exists (rows_of r (r * m) v). split; [|split].
  - cbn [set_entries]. rewrite atleast_2d_norm. cbn [validate]. rewrite norm_data, H2, fins_Fin. cbn [bind].
    assert (norm a = a) as -> by (unfold norm; rewrite H1; destruct r as [|[|n]]; reflexivity).
    rewrite H1, H2, fins_Fin. destruct (Nat.eqb_spec r 0); [lia|].
    replace (r * m / r) with m by (rewrite Nat.mul_comm, Nat.div_mul; lia). rewrite Nat.eqb_refl. reflexivity.
  - apply rows_of_shape. rewrite H3. cbn. lia.
  - intros. apply rows_of_get; auto. Qed.

(* a full Kronecker matrix or tensor is stored compressed and represents the same operator *)
Lemma stored_poly d a r v : 0 < r -> holds a [r; r ^ deg d] v \/ holds a (repeat r (S (deg d))) v ->
  exists H, set_entries (CPoly d) (Array a) = Ok (Dense (OPoly d H)) /\ is_mat r (operator_dimension d r) H /\
  forall q i, is_vec r q -> i < r ->
    vget (matvec H (ckron_of Rmult d q)) i =
    bsum (r ^ deg d) (fun x => (vget v (i * r ^ deg d + x) * vget (kron_power (deg d) q) x)%R).
Proof. intros Hr Hh.
  assert (HL : length v = r * r ^ deg d).
  { destruct Hh as [[_ [_ K]]|[_ [_ K]]]; rewrite K; [cbn; lia|]. rewrite repeat_prod. reflexivity. }
  assert (HM := rows_of_shape r (r ^ deg d) v HL).
  destruct (compress_preserves d r r _ Hr HM) as [H [Ec [HH HV]]]. exists H. split; [|split]; auto.
  - cbn [set_entries]. rewrite atleast_2d_norm. cbn [validate]. rewrite norm_data.
    assert (Hd : data a = map Fin v) by (destruct Hh as [[_ [K _]]|[_ [K _]]]; auto).
    rewrite Hd, fins_Fin. cbn [bind].
    assert (norm a = a) as -> by (unfold norm; destruct Hh as [[-> _]|[-> _]]; destruct d; destruct r as [|[|?]]; reflexivity).
    rewrite Hd, fins_Fin.
    destruct Hh as [[Hs _]|[Hs _]]; rewrite Hs.
    + assert ((length [r; r ^ deg d] =? S (deg d)) = false) as -> by (destruct d; reflexivity). cbn [andb].
      rewrite Nat.eqb_refl, Ec. reflexivity.
    + rewrite repeat_length, Nat.eqb_refl. rewrite (proj2 (all_equal_repeat _ (deg d) (repeat_length _ _))) by eauto.
      cbn [andb hd repeat]. rewrite Nat.eqb_refl, Ec. reflexivity.
  - intros q i Hq Hi. rewrite HV by auto. rewrite (vget_matvec r (r ^ deg d)); auto.
    + apply bsum_ext. intros x Hx. rewrite rows_of_get by auto. reflexivity.
    + unfold is_vec. rewrite kron_power_length, Hq. reflexivity. Qed.

(* already compressed entries are stored as given *)
Lemma stored_poly_compressed d a r v : 1 < r -> holds a [r; operator_dimension d r] v ->
  exists H, set_entries (CPoly d) (Array a) = Ok (Dense (OPoly d H)) /\ is_mat r (operator_dimension d r) H /\
  forall i j, i < r -> j < operator_dimension d r -> mget H i j = vget v (i * operator_dimension d r + j).
Proof. intros Hr Hh. pose proof Hh as [H1 [H2 H3]].
  assert (Hlt : operator_dimension d r < r ^ deg d).
  { destruct d; cbn [operator_dimension deg].
    - unfold opdim2. apply Nat.div_lt_upper_bound; [lia|]. cbn. nia.
    - unfold opdim3. apply Nat.div_lt_upper_bound; [lia|]. cbn. nia.
    - unfold opdim4. apply Nat.div_lt_upper_bound; [lia|]. cbn.
      assert (E : r * (r + 1) * (r + 2) * (r + 3) < 24 * (r * r * (r * r))).
      { assert (r + 1 < 2 * r) by lia. assert (r + 2 <= 2 * r) by lia. assert (r + 3 < 3 * r) by lia. nia. }
      lia. }
  exists (rows_of r (operator_dimension d r) v). split; [|split].
  - cbn [set_entries]. rewrite atleast_2d_norm. cbn [validate]. rewrite norm_data, H2, fins_Fin. cbn [bind].
    assert (norm a = a) as -> by (unfold norm; rewrite H1; destruct r as [|[|n]]; reflexivity).
    rewrite H1, H2, fins_Fin.
    assert ((length [r; operator_dimension d r] =? S (deg d)) = false) as -> by (destruct d; reflexivity). cbn [andb].
    destruct (Nat.eqb_spec (operator_dimension d r) (r ^ deg d)); [lia|]. rewrite Nat.eqb_refl. reflexivity.
  - apply rows_of_shape. rewrite H3. cbn. lia.
  - intros. apply rows_of_get; auto. Qed.

Lemma set_entries_rejects c : set_entries c NotArray = Err TypeError.
Proof. destruct c; reflexivity. Qed.

(* ---- histories: every answer is that of the entries last stored ------------------------------------ *)
Definition inv (junk : nat -> vec) (s : obj) (e : option op) : Prop :=
  oentries s = e /\ match e with
  | Some (OPoly d H) => omask s = Some (monomials (deg d) (nrows H)) /\
                        match oprejac s with None => True | Some G => expand d junk H = Ok G end
  | _ => True end.

Lemma obj_apply_spec junk s e q u : inv junk s e ->
  obj_apply s q u = match e with None => Err AttributeError | Some o => apply o q u end.
Proof. intros [He Hi]. unfold obj_apply. rewrite He. destruct e as [[c|A|d H|B|N]|]; auto. destruct Hi as [-> _].
  cbn [apply]. destruct (nrows H =? 1); auto. rewrite ckron_indices_lemma. reflexivity. Qed.

Lemma step_refines junk c s e k : inv junk s e -> inv junk (fst (step junk c s k)) (fst (spec_step junk c e k)) /\
  snd (step junk c s k) = snd (spec_step junk c e k).
Proof. intros HI. destruct k as [x| |q u|q u]; cbn [step spec_step].
  - unfold obj_set. destruct (set_entries c x) as [[o|]|] eqn:Es; [|cbn; auto|cbn; auto].
    destruct o as [?|?|d H|?|?]; try (cbn; split; [split|]; auto; fail).
    rewrite ckron_indices_lemma. cbn -[monomials deg]. split; [split; [auto|split; cbn; auto]|auto].
  - cbn. split; auto. split; auto.
  - cbn. rewrite (obj_apply_spec junk s e) by auto. auto.
  - unfold obj_jacobian. destruct HI as [He Hi]. rewrite He. destruct e as [[?|?|d H|?|?]|]; cbn -[jacobian]; try (split; [split|]; auto; fail).
    destruct Hi as [Hm Hp]. destruct (oprejac s) as [G|] eqn:Ep.
    + cbn -[jacobian]. split; [split; auto; split; auto; rewrite Ep; auto|]. cbn [jacobian]. rewrite Hp. reflexivity.
    + destruct (expand d junk H) as [G|] eqn:EG; cbn -[jacobian]; (split; [split|]; auto); try (split; auto; rewrite ?Ep; auto);
      cbn [jacobian]; rewrite EG; reflexivity. Qed.

Lemma run_refines junk c ks : forall s e, inv junk s e -> snd (run junk c s ks) = snd (spec_run junk c e ks).
Proof. induction ks as [|k ks IH]; intros s e HI; auto. cbn [run spec_run].
  destruct (step_refines junk c s e k HI) as [H1 H2].
  destruct (step junk c s k) as [s1 a]. destruct (spec_step junk c e k) as [e1 a']. cbn in H1, H2. subst a'.
  specialize (IH s1 e1 H1). destruct (run junk c s1 ks), (spec_run junk c e1 ks). cbn in *. congruence. Qed.

Lemma history_lemma junk c ks : snd (run junk c cleared ks) = snd (spec_run junk c None ks).
Proof. apply run_refines. split; cbn; auto. Qed.

(* ---- equality and addition ------------------------------------------------------------------------- *)
Lemma same_class_eq a b : same_class a b = true -> entries2 a = entries2 b -> a = b.
Proof. destruct a, b; cbn; try discriminate; intros K E; try congruence.
  - f_equal. revert c0 E. induction c; intros [|y c0] E; cbn in E; try discriminate; auto. injection E as -> E. f_equal; auto.
  - destruct d, d0; try discriminate; congruence. Qed.
Lemma same_class_refl a : same_class a a = true. Proof. destruct a as [?|?|[| |] ?|?|?]; reflexivity. Qed.
Lemma op_eqb_eq a b : op_eqb a b = true <-> a = b.
Proof. unfold op_eqb. split.
  - destruct (same_class a b) eqn:E; [|discriminate]. destruct (_ && _); [|discriminate]. unfold meqb.
    destruct (list_eq_dec _ _ _); [|discriminate]. intros _. apply same_class_eq; auto.
  - intros <-. rewrite same_class_refl, !Nat.eqb_refl. cbn. unfold meqb. destruct (list_eq_dec _ _ _); tauto. Qed.

Lemma add_type_error a b : same_class a b = false -> op_add a b = Err TypeError.
Proof. unfold op_add. intros ->. reflexivity. Qed.

Lemma bget_in r c A i j : is_mat r c A -> i < r -> j < c -> bget A i j = mget A i j.
Proof. intros HA Hi Hj. unfold bget. rewrite (is_mat_nrows _ _ _ HA), (ncols_is_mat r c) by (auto; lia).
  destruct (Nat.eqb_spec r 1), (Nat.eqb_spec c 1); f_equal; lia. Qed.
Lemma badd_ok r c A B : 0 < r -> is_mat r c A -> is_mat r c B -> badd A B = Ok (madd A B).
Proof. intros Hr HA HB. unfold badd, bdim. rewrite (is_mat_nrows _ _ _ HA), (is_mat_nrows _ _ _ HB), Nat.eqb_refl. cbn [bind].
  rewrite !(ncols_is_mat r c), Nat.eqb_refl by auto. cbn [bind]. f_equal. unfold tab2. apply (mat_ext r c); try mt.
  intros i j Hi Hj. rewrite mget_tab by auto. rewrite !(bget_in r c) by auto. rewrite (mget_madd r c) by auto. reflexivity. Qed.

Lemma is_mat_1_compress d E : is_mat 1 1 E -> compress d E = Ok E.
Proof. intros HE. destruct (compress_preserves d 1 1 E ltac:(lia)) as [H [Ec [HH HV]]].
  { destruct d; exact HE. }
  rewrite Ec. f_equal. rewrite opdim_1 in HH. rewrite (mat_1_1 H), (mat_1_1 E) by auto. do 2 f_equal.
  specialize (HV [1%R] eq_refl). rewrite (mat_1_1 H), (mat_1_1 E), ckron_1 in HV by auto.
  rewrite kron_power_mono in HV. injection HV as HV. cbn [length] in HV.
  assert (E1 : map (mono [1%R]) (tuples (deg d) 1) = [1%R]) by (destruct d; cbn; unfold mono, lprod; cbn; f_equal; ring).
  rewrite E1 in HV. cbn [dot] in HV. rewrite pow1 in HV. lra. Qed.

Lemma rebuild_same_ok r m a E : 0 < r -> is_mat r (opdim a r m) E -> exists c,
  rebuild_same a E = Ok c /\ wf_op r m c /\ same_class a c = true /\ entries2 c = E.
Proof. intros Hr HM. destruct a as [c|A|d H|B|N]; cbn [rebuild_same opdim] in *.
  - eexists. split; [reflexivity|]. assert (EE : map (fun x => [x]) (map (fun row => nth 0 row 0%R) E) = E).
    { rewrite map_map. rewrite <- (map_id E) at 2. apply map_ext_in. intros row Hrow. destruct HM as [_ HF].
      rewrite Forall_forall in HF. specialize (HF _ Hrow). rewrite (vec_1 row) at 2 by auto. reflexivity. }
    cbn. rewrite EE. split; auto. unfold is_vec. rewrite map_length. destruct HM; auto.
  - rewrite (is_mat_nrows _ _ _ HM), (ncols_is_mat r r), Nat.eqb_refl by auto. eexists. split; [reflexivity|]. auto.
  - rewrite (is_mat_nrows _ _ _ HM), (ncols_is_mat r (operator_dimension d r)) by auto.
    destruct (Nat.eqb_spec (operator_dimension d r) (r ^ deg d)) as [Eq|Eq].
    + assert (r = 1) as ->.
      { destruct (Nat.eq_dec r 1); auto. exfalso. assert (H1r : 1 < r) by lia. clear - H1r Eq. destruct d; cbn [operator_dimension deg] in Eq.
        - pose proof (opdim2_desc r) as K1. pose proof (desc2_length r). rewrite <- K1 in H. cbn [Nat.pow] in Eq. rewrite Nat.mul_1_r in Eq. rewrite Eq in H. nia.
        - pose proof (opdim3_desc r) as K1. pose proof (desc3_length r). rewrite <- K1 in H. cbn [Nat.pow] in Eq. rewrite Nat.mul_1_r in Eq. rewrite Eq in H. assert (r * r > r) by nia. nia.
        - pose proof (opdim4_desc r) as K1. pose proof (desc4_length r). rewrite <- K1 in H. cbn [Nat.pow] in Eq. rewrite Eq in H.
          assert (r * (r + 1) * (r + 2) * (r + 3) < 24 * (r * (r * (r * (r * 1))))); [|lia].
          assert (r + 1 < 2 * r) by lia. assert (r + 2 <= 2 * r) by lia. assert (r + 3 < 3 * r) by lia. nia. }
      rewrite opdim_1 in HM. rewrite is_mat_1_compress by auto. eexists. split; [reflexivity|]. cbn [wf_op]. rewrite opdim_1.
      split; auto. split; auto. destruct d; reflexivity.
    + rewrite Nat.eqb_refl. eexists. split; [reflexivity|]. split; auto. split; auto. destruct d; reflexivity.
  - eexists. split; [reflexivity|]. auto.
  - rewrite (is_mat_nrows _ _ _ HM), (ncols_is_mat r (r * m)) by auto. destruct (Nat.eqb_spec r 0); [lia|].
    replace (r * m / r) with m by (rewrite Nat.mul_comm, Nat.div_mul; lia). rewrite Nat.eqb_refl. eexists. split; [reflexivity|]. auto. Qed.

Lemma op_add_ok r m a b : 0 < r -> wf_op r m a -> wf_op r m b -> same_class a b = true -> exists c,
  op_add a b = Ok c /\ wf_op r m c /\ same_class a c = true /\ entries2 c = madd (entries2 a) (entries2 b).
Proof. intros Hr Ha Hb Hs. unfold op_add. rewrite Hs. cbn [negb].
  assert (HA := entries2_shape r m a Ha). assert (HB := entries2_shape r m b Hb).
  assert (Ho : opdim b r m = opdim a r m) by (destruct a, b; cbn in *; try discriminate; auto; destruct d, d0; try discriminate; auto).
  rewrite Ho in HB. unfold data2. rewrite (badd_ok r (opdim a r m)) by auto. cbn [bind].
  apply rebuild_same_ok; auto. mt. Qed.

Lemma op_add_apply r m a b c q u : 0 < r -> 0 < m -> wf_op r m a -> wf_op r m b -> op_add a b = Ok c ->
  is_vec r q -> is_vec m u -> exists x y, apply a (V q) (V u) = Ok (V x) /\ apply b (V q) (V u) = Ok (V y) /\
    apply c (V q) (V u) = Ok (V (vadd x y)).
Proof. intros Hr Hm Ha Hb Hc Hq Hu.
  destruct (same_class a b) eqn:Hs; [|rewrite add_type_error in Hc by auto; discriminate].
  destruct (op_add_ok r m a b Hr Ha Hb Hs) as [c' [E1 [Hwf [Hs' HE]]]]. rewrite Hc in E1. injection E1 as <-.
  rewrite !(apply_vec r m) by auto. do 2 eexists. split; [reflexivity|]. split; [reflexivity|]. do 2 f_equal. rewrite HE.
  assert (Hd : datavec c q u = datavec a q u /\ datavec b q u = datavec a q u /\ opdim b r m = opdim a r m).
  { destruct a, b, c; cbn in Hs, Hs'; try discriminate; auto. destruct d, d0, d1; try discriminate; auto. }
  destruct Hd as [-> [-> Ho]]. assert (HB := entries2_shape r m b Hb). rewrite Ho in HB.
  apply (matvec_madd r (opdim a r m)); auto; [apply entries2_shape; auto|]. apply is_vec_datavec; auto. Qed.

(* ---- where the code departs from the documented checks ---------------------------------------------- *)
Lemma add_broadcasts : exists a b c, wf_op 1 1 a /\ wf_op 2 1 b /\ op_add a b = Ok c /\ wf_op 2 1 c.
Proof. exists (OLin [[1%R]]), (OLin [[1; 2]; [3; 4]]%R). eexists. split; [repeat constructor|]. split; [repeat constructor|].
  split; [reflexivity|]. repeat constructor. Qed.

Lemma sparse_nan : exists a, is_nd a /\ ~ all_finite a /\ exists s, set_entries CLin (Sparse a) = Ok s.
Proof. exists {| shape := [1; 1]; data := [NaN] |}. split; [reflexivity|]. split.
  - intros K. destruct (K NaN (or_introl eq_refl)). discriminate.
  - eexists. reflexivity. Qed.
