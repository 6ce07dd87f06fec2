(* ItemProofs.v -- proofs of property C77. *)
From Coq Require Import String ZArith Lia List DecimalString DecimalNat.
From Verif Require Import LinAlg PreFinal BasisProofs BasisMultiProofs BasisNames SolverProofs ItemModel SpecBasis SpecItem.
Import ListNotations.
#[local] Open Scope nat_scope.
#[local] Open Scope list_scope.

(* ---- multi[key] -------------------------------------------------------------------------------------------------- *)
Lemma index_of_none s names j : index_of s names j = None -> forall k, nth_error names k <> Some (Some s).
Proof. revert j; induction names as [|nm names IH]; intros j H k; [destruct k; discriminate|]. cbn in H.
  destruct nm as [x|].
  - destruct (String.eqb_spec x s) as [->|Hx]; [discriminate|]. destruct k; cbn; [congruence|]. eapply IH; eauto.
  - destruct k; cbn; [congruence|]. eapply IH; eauto. Qed.
Lemma index_of_some s names j i : index_of s names j = Some i -> exists k, i = j + k /\ nth_error names k = Some (Some s) /\ forall k', k' < k -> nth_error names k' <> Some (Some s).
Proof. revert j; induction names as [|nm names IH]; intros j H; [discriminate|]. cbn in H.
  assert (G : index_of s names (S j) = Some i -> nm <> Some s -> exists k, i = j + k /\ nth_error (nm :: names) k = Some (Some s) /\ forall k', k' < k -> nth_error (nm :: names) k' <> Some (Some s)).
  { intros H1 Hn. destruct (IH _ H1) as (k & -> & A & B). exists (S k). split; [lia|]. split; auto. intros [|k'] Hk; cbn; [congruence|]. apply B. lia. }
  destruct nm as [x|].
  - destruct (String.eqb_spec x s) as [->|Hx]; [|apply G; congruence]. injection H as <-. exists 0. split; [lia|]. split; auto. intros; lia.
  - apply G; auto. congruence. Qed.
Lemma first_names {A} (name : A -> option pystr) l s i : 
  (exists x, first_named name l s i x) <-> nth_error (map name l) i = Some (Some s) /\ forall k, k < i -> nth_error (map name l) k <> Some (Some s).
Proof. unfold first_named. rewrite nth_error_map. split.
  - intros (x & E & N & F). rewrite E. cbn. split; [congruence|]. intros k Hk. rewrite nth_error_map. destruct (nth_error l k) eqn:Ek; cbn; [|discriminate]. intros X. injection X as X. exact (F k a Hk Ek X).
  - intros [E F]. destruct (nth_error l i) as [x|] eqn:Ei; [|discriminate]. cbn in E. injection E as E. exists x. split; auto. split; auto. intros j y Hj Ey Ny.
    apply (F j Hj). rewrite nth_error_map, Ey. cbn. congruence. Qed.
Lemma norm_index_spec n z i : norm_index n z = Ok i <-> i < n /\ (z = Z.of_nat i \/ z = Z.of_nat i - Z.of_nat n)%Z.
Proof. unfold norm_index. destruct (Z.ltb_spec z 0); destruct ((0 <=? _)%Z && _)%bool eqn:E.
  - apply andb_prop in E as [E1 E2]. apply Z.leb_le in E1. apply Z.ltb_lt in E2. split; [intros X; injection X as <-; lia|]. intros [Hi [->| ->]]; [lia|]. f_equal. lia.
  - split; [discriminate|]. intros [Hi [->| ->]]; [lia|]. exfalso. apply Bool.andb_false_iff in E as [E|E]; [apply Z.leb_gt in E; lia|apply Z.ltb_ge in E; lia].
  - apply andb_prop in E as [E1 E2]. apply Z.leb_le in E1. apply Z.ltb_lt in E2. split; [intros X; injection X as <-; lia|]. intros [Hi [->| ->]]; [|lia]. f_equal. lia.
  - split; [discriminate|]. intros [Hi [->| ->]]; [|lia]. exfalso. apply Bool.andb_false_iff in E as [E|E]; [apply Z.leb_gt in E; lia|apply Z.ltb_ge in E; lia]. Qed.
Lemma norm_index_err n z e : norm_index n z = Err e -> e = IndexError.
Proof. unfold norm_index. destruct (_ && _)%bool; congruence. Qed.

Lemma item_refers {A} (name : A -> option pystr) l key :
  match getitem name l key with
  | Ok x => exists i, refers name l key i /\ nth_error l i = Some x
  | Err e => (forall i, ~ refers name l key i) /\ e = match key with VName _ => TypeError | VIdx _ => IndexError end
  end.
Proof.
  unfold getitem, tuple_item. destruct key as [s|z].
  - destruct (index_of s (map name l) 0) as [i|] eqn:E.
    + destruct (index_of_some _ _ _ _ E) as (k & -> & H1 & H2). cbn [Nat.add]. assert (Hk : k < length l) by (rewrite <- (map_length name); apply nth_error_Some; congruence).
      rewrite (proj2 (norm_index_spec (length l) (Z.of_nat k) k)) by auto. cbn [bind]. destruct (nth_error l k) as [x|] eqn:Ex; [|apply nth_error_None in Ex; lia].
      exists k. split; auto. destruct (proj2 (first_names name l s k) (conj H1 H2)) as [y Hy]. econstructor; eauto.
    + split; auto. intros i H. inversion H as [? ? x F| |]; subst. apply (index_of_none _ _ _ E i). apply (proj1 (first_names name l s i)). eauto.
  - destruct (norm_index (length l) z) as [i|e] eqn:E; cbn [bind].
    + apply norm_index_spec in E as [Hi Hz]. destruct (nth_error l i) as [x|] eqn:Ex; [|apply nth_error_None in Ex; lia]. exists i. split; auto.
      destruct Hz as [-> | ->]; [now constructor|]. replace (Z.of_nat i - Z.of_nat (length l))%Z with (- Z.of_nat (length l - i))%Z by lia.
      replace i with (length l - (length l - i)) at 2 by lia. constructor. lia.
    + split; [|eapply norm_index_err; eauto]. intros i H.
      assert (G : norm_index (length l) z = Ok i). { inversion H; subst; apply norm_index_spec; lia. }
      congruence.
Qed.
Lemma refers_unique {A} (name : A -> option pystr) l key i j : refers name l key i -> refers name l key j -> i = j.
Proof.
  assert (G : forall i, refers name l key i -> match key with
    | VName s => exists x, first_named name l s i x
    | VIdx z => i < length l /\ (z = Z.of_nat i \/ z = Z.of_nat i - Z.of_nat (length l))%Z end).
  { intros k H. destruct H; [eauto|split; [auto|left; auto]|split; [lia|right; lia]]. }
  intros H H'. apply G in H. apply G in H'. destruct key as [s|z]; [|lia].
  destruct H as (x & E & N & F), H' as (y & E' & N' & F').
  destruct (Nat.lt_trichotomy i j) as [L|[L|L]]; auto; exfalso; [exact (F' i x L E N)|exact (F j y L E' N')].
Qed.

(* ---- get_var and multi[key] -------------------------------------------------------------------------------------- *)
Lemma item_get_var ns l a key t : Forall2 trained ns l -> alen a = lsumn ns -> (forall z, key = VIdx z -> (0 <= z)%Z) ->
  tf_getitem l key = Ok t -> exists i, nth_error l i = Some t /\ get_var l key a = Ok (var_rows ns i a).
Proof. intros H Ha Hz E. assert (R := item_refers tf_name l key). unfold tf_getitem in E. rewrite E in R. destruct R as (i & R & Hi). exists i. split; auto.
  inversion R; subst.
  - apply C06_get_var_name; auto; apply (proj1 (first_names tf_name l s i)); eauto.
  - apply C06_get_var; auto.
  - specialize (Hz _ eq_refl). lia. Qed.
Lemma item_bget_var ns rs bs a key b : members ns rs bs -> (forall z, key = VIdx z -> (0 <= z)%Z) -> b_getitem bs key = Ok b ->
  exists i, nth_error bs i = Some b /\ (alen a = lsumn ns -> bget_var bs key a = Ok (var_rows ns i a)) /\
    (alen a = lsumn rs -> Forall2 le rs ns -> bget_var bs key a = Ok (var_rows rs i a)).
Proof. intros H Hz E. assert (R := item_refers b_name bs key). unfold b_getitem in E. rewrite E in R. destruct R as (i & R & Hi). exists i. split; auto.
  inversion R as [s i' x F|i' L|k K]; subst.
  - destruct F as (E1 & N & F). eapply get_named; eauto.
  - apply C12_get_var; auto.
  - specialize (Hz _ eq_refl). lia. Qed.
Lemma length_dimsum ns : length (dimsum ns) = S (length ns).
Proof. unfold dimsum, cumsum. cbn. f_equal. generalize 0. induction ns as [|n ns IH]; intros c; cbn; auto. Qed.
Lemma slice_empty {A} i (l : list A) : slice i 0 l = [].
Proof. unfold slice. cbn. reflexivity. Qed.
Lemma get_var_end ns l a : Forall2 trained ns l -> alen a = lsumn ns ->
  (forall k, 0 < k <= length l -> get_var l (VIdx (- Z.of_nat (k + 1))) a = Ok (var_rows ns (length l - k) a)) /\
  get_var l (VIdx (-1)) a = Ok (match a with V _ => V [] | M _ => M [] end).
Proof. intros H Ha. assert (HL := F2_length _ _ _ H). unfold get_var, multi_check. rewrite (variable_sizes_trained ns l H), Ha, Nat.eqb_refl. cbn [bind]. split.
  - intros k Hk. rewrite (proj2 (norm_index_spec _ _ (length l - k))) by (rewrite length_dimsum; lia). cbn [bind].
    destruct (Nat.eq_dec k 0) as [->|]; [lia|]. rewrite (proj2 (norm_index_spec _ _ (S (length l - k)))) by (rewrite length_dimsum; lia). cbn [bind].
    rewrite !dimsum_nth by lia. unfold var_rows, rows, aslice, slice. destruct a; reflexivity.
  - rewrite (proj2 (norm_index_spec _ _ (length l))) by (rewrite length_dimsum; lia). cbn [bind]. rewrite (proj2 (norm_index_spec _ _ 0)) by (rewrite length_dimsum; lia). cbn [bind].
    rewrite (dimsum_nth ns 0) by lia. cbn [firstn lsumn]. unfold aslice. destruct a; cbn; rewrite ?slice_empty; reflexivity. Qed.

Lemma bget_var_end ns rs bs a : members ns rs bs -> Forall2 le rs ns ->
  (forall sizes, alen a = lsumn sizes -> sizes = ns \/ sizes = rs ->
    (forall k, 0 < k <= length bs -> bget_var bs (VIdx (- Z.of_nat (k + 1))) a = Ok (var_rows sizes (length bs - k) a)) /\
    bget_var bs (VIdx (-1)) a = Ok (match a with V _ => V [] | M _ => M [] end)).
Proof. intros Hm Hle sizes Ha Hs. destruct (members_len _ _ _ Hm) as [L1 L2]. assert (HL : length sizes = length bs) by (destruct Hs; subst; auto).
  assert (K : forall key, bget_var bs (VIdx key) a = (let ds := dimsum sizes in do i <- norm_index (length ds) key; do j <- norm_index (length ds) (key + 1)%Z; Ok (aslice (nth i ds 0) (nth j ds 0) a))).
  { intros key. unfold bget_var, is_reduced. destruct Hs; subst sizes.
    - rewrite (members_full _ _ _ Hm), Ha, Nat.eqb_refl. reflexivity.
    - rewrite (members_full _ _ _ Hm), (members_red _ _ _ Hm), Ha, Nat.eqb_refl. destruct (Nat.eqb_spec (lsumn rs) (lsumn ns)) as [E|]; cbn [bind]; [|reflexivity]. rewrite (proj2 (sums_le _ _ Hle)) by auto. reflexivity. }
  split.
  - intros k Hk. rewrite K. cbv zeta. rewrite (proj2 (norm_index_spec _ _ (length bs - k))) by (rewrite length_dimsum; lia). cbn [bind].
    rewrite (proj2 (norm_index_spec _ _ (S (length bs - k)))) by (rewrite length_dimsum; lia). cbn [bind].
    rewrite !dimsum_nth by lia. unfold var_rows, rows, aslice, slice. destruct a; reflexivity.
  - rewrite K. cbv zeta. rewrite (proj2 (norm_index_spec _ _ (length bs))) by (rewrite length_dimsum; lia). cbn [bind]. rewrite (proj2 (norm_index_spec _ _ 0)) by (rewrite length_dimsum; lia). cbn [bind].
    rewrite (dimsum_nth sizes 0) by lia. cbn [firstn lsumn]. unfold aslice. destruct a; cbn; rewrite ?slice_empty; reflexivity. Qed.

(* ---- the constructor of TransformerMulti ------------------------------------------------------------------------- *)
Lemma set_name_dim nm t : tf_dim (tf_set_name nm t) = tf_dim t.
Proof. destruct t; reflexivity. Qed.
Lemma set_name_name nm t : ~ multi t -> tf_name (tf_set_name nm t) = nm.
Proof. destruct t; cbn; intros H; auto. now destruct H. Qed.
Lemma same_refl t : same_transformer t t.
Proof. destruct t; cbn; auto. unfold same_settings. auto 10. Qed.
Lemma same_name nm t : same_transformer t (tf_set_name nm t).
Proof. destruct t; cbn; auto. unfold same_settings. auto 10. Qed.
Lemma same_name' nm t t' : same_transformer (tf_set_name nm t) t' -> same_transformer t t'.
Proof. destruct t; cbn; auto. Qed.
Lemma assign_dim n t : tf_dim t = None -> ~ multi t ->
  match tf_assign_dim n t with Ok t' => tf_dim t' = Some n /\ tf_name t' = tf_name t /\ same_transformer t t' /\ ~ pipeline t | Err e => e = AttributeError /\ pipeline t end.
Proof. intros H Hm. destruct t; try (exfalso; apply Hm; exact I); cbn in *; try discriminate; unfold same_settings; cbn; auto 12. Qed.

Definition named (i : nat) (t : tf) : tf := match tf_name t with None => tf_set_name (Some (variable_name i)) t | Some _ => t end.
Lemma named_keeps i t : ~ multi t -> tf_name (named i t) = Some (match tf_name t with Some s => s | None => variable_name i end) /\ tf_dim (named i t) = tf_dim t /\ same_transformer t (named i t) /\ (pipeline (named i t) <-> pipeline t) /\ ~ multi (named i t).
Proof. intros H. unfold named. destruct (tf_name t) eqn:E; [split; auto; split; auto; split; [apply same_refl|tauto]|].
  rewrite set_name_name, set_name_dim; auto. split; auto. split; auto. split; [apply same_name|]. destruct t; cbn in *; tauto. Qed.
Lemma mapM_err {A B} (f : A -> res B) l e : mapM f l = Err e -> exists i x, nth_error l i = Some x /\ f x = Err e.
Proof. induction l as [|x l IH]; cbn; [discriminate|]. destruct (f x) eqn:E; cbn [bind].
  - destruct (mapM f l) eqn:El; cbn [bind]; [discriminate|]. intros X. injection X as ->. destruct (IH eq_refl) as (i & y & H1 & H2). exists (S i), y. auto.
  - intros X. injection X as ->. exists 0, x. auto. Qed.
Lemma mapM_nth_some {A B} (f : A -> res B) l l' : mapM f l = Ok l' -> length l' = length l /\ forall i x, nth_error l i = Some x -> exists y, nth_error l' i = Some y /\ f x = Ok y.
Proof. revert l'; induction l as [|x l IH]; cbn; intros l' H. { injection H as <-. split; auto. intros [|i] ? X; discriminate. }
  destruct (f x) eqn:E; cbn [bind] in H; [|discriminate]. destruct (mapM f l) as [r|] eqn:El; cbn [bind] in H; [|discriminate]. injection H as <-.
  destruct (IH _ eq_refl) as [L G]. split; [cbn; lia|]. intros [|i] y X; cbn in *; [injection X as <-; eauto|eauto]. Qed.
Lemma combine_nth_some {A B} (l : list A) (l' : list B) i : length l = length l' -> forall a b, nth_error (combine l l') i = Some (a, b) <-> nth_error l i = Some a /\ nth_error l' i = Some b.
Proof. revert l' i; induction l as [|x l IH]; intros [|y l'] i H a b; try discriminate. - destruct i; cbn; split; [discriminate|intros [X _]; discriminate|discriminate|intros [X _]; discriminate].
  - destruct i; cbn; [split; [intros X; injection X as <- <-; auto|intros [X Y]; congruence]|]. apply IH. cbn in H. lia. Qed.

Lemma new_tmulti l sizes :
  match mk_multi l sizes with
  | Ok t => exists l', t = TMulti l' /\ l <> [] /\ length l' = length l /\ (forall ns, sizes = Some ns -> length ns = length l) /\
      forall i o, nth_error l i = Some o -> ~ multi (given o) /\ exists t', nth_error l' i = Some t' /\ same_transformer (given o) t' /\
        tf_name t' = Some (match tf_name (given o) with Some s => s | None => variable_name i end) /\
        tf_dim t' = (match sizes with Some ns => nth_error ns i | None => tf_dim (given o) end) /\
        (forall n, tf_dim (given o) = Some n -> tf_dim t' = Some n) /\ (sizes <> None -> tf_dim (given o) = None -> ~ pipeline (given o))
  | Err e =>
      (e = ValueError /\ (l = [] \/ exists ns, sizes = Some ns /\ (length ns <> length l \/ exists i o n m, nth_error l i = Some o /\ tf_dim (given o) = Some n /\ nth_error ns i = Some m /\ n <> m))) \/
      (e = AttributeError /\ exists i o, nth_error l i = Some o /\ (multi (given o) \/ sizes <> None /\ pipeline (given o) /\ tf_dim (given o) = None))
  end.
Proof.
  unfold mk_multi. destruct l as [|o0 l0]; [left; auto|]. set (l := o0 :: l0). assert (Hne : l <> []) by discriminate. clearbody l. clear o0 l0.
  change (map (fun t => match t with None => mk_null None | Some t => t end) l) with (map given l).
  set (f := fun it : nat * tf => match snd it with TMulti _ => Err AttributeError | t => Ok (match tf_name t with None => tf_set_name (Some (variable_name (fst it))) t | Some _ => t end) end).
  assert (Ff : forall i t, (multi t -> f (i, t) = Err AttributeError) /\ (~ multi t -> f (i, t) = Ok (named i t))).
  { intros i t. unfold f, named. split; destruct t; cbn; tauto. }
  assert (NC : forall i t, nth_error (combine (seq 0 (length (map given l))) (map given l)) i = Some (i, t) <-> exists o, nth_error l i = Some o /\ t = given o).
  { intros i t. rewrite combine_nth_some by apply seq_length. rewrite nth_error_map. split.
    - intros [_ X]. destruct (nth_error l i) as [o|]; [|discriminate]. cbn in X. injection X as <-. eauto.
    - intros (o & E & ->). rewrite E. split; auto. apply seq_nth_some. rewrite map_length. apply nth_error_Some. congruence. }
  assert (NC2 : forall i p, nth_error (combine (seq 0 (length (map given l))) (map given l)) i = Some p -> fst p = i).
  { intros i [j t] X. apply combine_nth_some in X as [X _]; [|apply seq_length]. assert (Hi : i < length (map given l)) by (rewrite <- (seq_length (length (map given l)) 0); apply nth_error_Some; congruence).
    rewrite seq_nth_some in X by auto. cbn. congruence. }
  destruct (mapM f _) as [l1|e1] eqn:E1; cbn [bind].
  2:{ right. destruct (mapM_err _ _ _ E1) as (i & [j t] & X & Y). assert (Hj := NC2 _ _ X). cbn in Hj. subst j. apply NC in X as (o & Ho & ->).
      assert (D : multi (given o) \/ ~ multi (given o)) by (destruct (given o); cbn; tauto). destruct (Ff i (given o)) as [F1 F2]. destruct D as [D|D]; [|rewrite F2 in Y by auto; discriminate].
      rewrite F1 in Y by auto. injection Y as <-. split; auto. exists i, o. auto. }
  apply mapM_nth_some in E1 as [L1 G1]. rewrite combine_length, seq_length, map_length, Nat.min_id in L1.
  assert (G : forall i o, nth_error l i = Some o -> ~ multi (given o) /\ nth_error l1 i = Some (named i (given o))).
  { intros i o Ho. destruct (G1 i (i, given o)) as (y & Y1 & Y2); [apply NC; eauto|].
    assert (D : multi (given o) \/ ~ multi (given o)) by (destruct (given o); cbn; tauto). destruct (Ff i (given o)) as [F1 F2]. destruct D as [D|D]; [rewrite F1 in Y2 by auto; discriminate|].
    rewrite F2 in Y2 by auto. injection Y2 as <-. auto. }
  clear G1 NC NC2 Ff. clearbody f. clear f.
  destruct sizes as [ns|].
  2:{ exists l1. split; auto. split; auto. split; auto. split; [discriminate|]. intros i o Ho. destruct (G i o Ho) as [Hm H1]. split; auto. exists (named i (given o)).
      destruct (named_keeps i (given o) Hm) as (K1 & K2 & K3 & K4 & K5). split; auto. split; auto. split; auto. split; auto. split; [intros n Hn; congruence|]. intros X; now contradiction X. }
  destruct (Nat.eqb_spec (length ns) (length l1)) as [HL|HL]; cbn [negb bind].
  2:{ left. split; auto. right. exists ns. split; auto. left. congruence. }
  match goal with |- context [mapM ?g (combine l1 ns)] => set (f := g) end.
  assert (Back : forall i t, nth_error l1 i = Some t -> exists o, nth_error l i = Some o /\ ~ multi (given o) /\ t = named i (given o)).
  { intros i t Ht. assert (Hi : i < length l) by (rewrite <- L1; apply nth_error_Some; congruence). destruct (nth_error l i) as [o|] eqn:Eo; [|apply nth_error_None in Eo; lia].
    destruct (G i o Eo) as [Hm X]. exists o. split; auto. split; auto. congruence. }
  destruct (mapM f (combine l1 ns)) as [l2|e2] eqn:E2; cbn [bind].
  - apply mapM_nth_some in E2 as [L2 G2]. rewrite combine_length in L2. exists l2. split; auto. split; auto. split; [lia|]. split; [intros ? X; injection X as <-; congruence|].
    intros i o Ho. destruct (G i o Ho) as [Hm H1]. split; auto. destruct (named_keeps i (given o) Hm) as (K1 & K2 & K3 & K4 & K5).
    assert (Hi : i < length ns) by (rewrite HL; apply nth_error_Some; congruence). destruct (nth_error ns i) as [m|] eqn:Em; [|apply nth_error_None in Em; lia].
    destruct (G2 i (named i (given o), m)) as (t' & T1 & T2); [apply combine_nth_some; auto|]. exists t'. split; auto. unfold f in T2. rewrite K2 in T2. destruct (tf_dim (given o)) as [n|] eqn:Ed.
    + destruct (Nat.eqb_spec n m) as [->|]; [|discriminate]. injection T2 as <-. rewrite K2. split; auto. split; auto. split; auto. split; auto. intros _ X; discriminate.
    + assert (A := assign_dim m (named i (given o)) K2 K5). rewrite T2 in A. destruct A as (A1 & A2 & A3 & A4). split.
      { unfold named in A3. destruct (tf_name (given o)); auto. eapply same_name'; eauto. }
      split; [congruence|]. split; auto. split; [discriminate|]. intros _ _ P. apply A4, K4, P.
  - destruct (mapM_err _ _ _ E2) as (i & [t m] & X & Y). apply combine_nth_some in X as [X1 X2]; [|auto]. destruct (Back i t X1) as (o & Ho & Hm & ->). destruct (named_keeps i (given o) Hm) as (K1 & K2 & K3 & K4 & K5).
    unfold f in Y. rewrite K2 in Y. destruct (tf_dim (given o)) as [n|] eqn:Ed.
    + destruct (Nat.eqb_spec n m) as [->|Hn]; [discriminate|]. injection Y as <-. left. split; auto. right. exists ns. split; auto. right. exists i, o, n, m. auto.
    + assert (A := assign_dim m (named i (given o)) K2 K5). rewrite Y in A. destruct A as (-> & A). right. split; auto. exists i, o. split; auto. right. split; [discriminate|]. split; auto. apply K4, A.
Qed.

(* ---- default names ------------------------------------------------------------------------------------------------ *)
Lemma variable_name_inj i j : variable_name i = variable_name j -> i = j.
Proof. unfold variable_name. cbn. intros H. injection H as H. apply (f_equal NilEmpty.uint_of_string) in H. rewrite !NilEmpty.usu in H. injection H as H. now apply Unsigned.to_uint_inj. Qed.
Lemma default_items l sizes l' : mk_multi l sizes = Ok (TMulti l') -> (forall o, In o l -> tf_name (given o) = None) ->
  forall i t, nth_error l' i = Some t -> tf_getitem l' (VName (variable_name i)) = Ok t.
Proof. intros E Hn i t Ht. assert (N := new_tmulti l sizes). rewrite E in N. destruct N as (l2 & X & _ & L & _ & N). injection X as <-.
  assert (Nm : forall j y, nth_error l' j = Some y -> tf_name y = Some (variable_name j)).
  { intros j y Hy. assert (Hj : j < length l) by (rewrite <- L; apply nth_error_Some; congruence). destruct (nth_error l j) as [o|] eqn:Eo; [|apply nth_error_None in Eo; lia].
    destruct (N j o Eo) as (_ & t' & T1 & _ & T2 & _). rewrite (Hn o) in T2 by (eapply nth_error_In; eauto). congruence. }
  assert (R := item_refers tf_name l' (VName (variable_name i))). unfold tf_getitem. destruct (getitem tf_name l' (VName (variable_name i))) as [x|e].
  - destruct R as (j & R & Hj). inversion R as [s k y F| |]; subst. destruct F as (F1 & F2 & F3). rewrite (Nm j y F1) in F2. injection F2 as F2. apply (f_equal (String.append "variable ")) in F2.
    apply variable_name_inj in F2. subst j. congruence.
  - destruct R as [R _]. exfalso. apply (R i). econstructor. split; [exact Ht|]. split; [apply Nm; auto|]. intros j y Hj Hy. rewrite (Nm j y Hy). intros X. injection X as X.
    apply (f_equal (String.append "variable ")) in X. apply variable_name_inj in X. lia. Qed.
Lemma default_bitems bs sizes bs' : mk_bmulti bs sizes = Ok bs' -> (forall b, In b bs -> b_name b = None) ->
  forall i b, nth_error bs' i = Some b -> b_getitem bs' (VName (variable_name i)) = Ok b.
Proof. intros E Hn i t Ht. assert (N := new_multi bs sizes). rewrite E in N. destruct N as (_ & L & _ & N).
  assert (Nm : forall j y, nth_error bs' j = Some y -> b_name y = Some (variable_name j)).
  { intros j y Hy. assert (Hj : j < length bs) by (rewrite <- L; apply nth_error_Some; congruence). destruct (nth_error bs j) as [o|] eqn:Eo; [|apply nth_error_None in Eo; lia].
    destruct (N j o Eo) as (t' & T1 & T2 & _). rewrite (Hn o) in T2 by (eapply nth_error_In; eauto). congruence. }
  assert (R := item_refers b_name bs' (VName (variable_name i))). unfold b_getitem. destruct (getitem b_name bs' (VName (variable_name i))) as [x|e].
  - destruct R as (j & R & Hj). inversion R as [s k y F| |]; subst. destruct F as (F1 & F2 & F3). rewrite (Nm j y F1) in F2. injection F2 as F2. apply (f_equal (String.append "variable ")) in F2.
    apply variable_name_inj in F2. subst j. congruence.
  - destruct R as [R _]. exfalso. apply (R i). econstructor. split; [exact Ht|]. split; [apply Nm; auto|]. intros j y Hj Hy. rewrite (Nm j y Hy). intros X. injection X as X.
    apply (f_equal (String.append "variable ")) in X. apply variable_name_inj in X. lia. Qed.
Lemma own_name_refuted : exists l l', mk_multi l None = Ok (TMulti l') /\ exists t0 t1, nth_error l' 0 = Some t0 /\ nth_error l' 1 = Some t1 /\ t0 <> t1 /\
  tf_name t1 = Some (variable_name 1) /\ tf_getitem l' (VName (variable_name 1)) = Ok t0.
Proof. exists [Some (TShift [1%R] (Some (variable_name 1))); None], [TShift [1%R] (Some (variable_name 1)); TNull None (Some (variable_name 1))].
  split; [reflexivity|]. do 2 eexists. split; [reflexivity|]. split; [reflexivity|]. split; [discriminate|]. split; reflexivity. Qed.
Lemma negative_items_refuted : exists ns l a i t, Forall2 trained ns l /\ alen a = lsumn ns /\ nth_error l i = Some t /\ tf_getitem l (VIdx (-1)) = Ok t /\ get_var l (VIdx (-1)) a <> Ok (var_rows ns i a).
Proof. exists [1; 1], [TShift [1%R] None; TShift [2%R] None], (V [7; 8]%R), 1, (TShift [2%R] None). assert (H : Forall2 trained [1; 1] [TShift [1%R] None; TShift [2%R] None]) by (repeat constructor; cbn; auto).
  split; auto. split; auto. split; auto. split; [reflexivity|]. rewrite (proj2 (get_var_end _ _ (V [7; 8]%R) H eq_refl)). cbn. discriminate. Qed.
