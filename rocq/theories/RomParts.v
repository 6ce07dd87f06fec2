(* RomParts.v -- transformers and bases act on each column by one fixed affine map. *)
From Verif Require Import LinAlg MatAlg PreProofs PreLocs PreFinal BasisProofs BasisMultiProofs SpecRom.
From Coq Require Import Lra Lia Psatz.
#[local] Open Scope nat_scope.

(* phi depends on the first n entries only and phi' is its derivative *)
Definition Af (n : nat) (phi phi' : (nat -> R) -> R) : Prop :=
  (forall x y, (forall l, l < n -> x l = y l) -> phi x = phi y /\ phi' x = phi' y) /\
  (forall (G : R -> nat -> R) (D : nat -> R), (forall l, l < n -> derivable_pt_lim (fun h => G h l) 0 (D l)) ->
     derivable_pt_lim (fun h => phi (G h)) 0 (phi' D)).
Lemma Af_proj n l : l < n -> Af n (fun x => x l) (fun x => x l). Proof. intros Hl. split; auto. Qed.
Lemma Af_const n c : Af n (fun _ => c) (fun _ => 0%R). Proof. split; auto. intros. apply derivable_pt_lim_const. Qed.
Lemma Af_plus n f f' g g' : Af n f f' -> Af n g g' -> Af n (fun x => f x + g x)%R (fun x => f' x + g' x)%R.
Proof.
  intros [F1 F2] [G1 G2]. split. { intros x y H. destruct (F1 x y H) as [-> ->], (G1 x y H) as [-> ->]. auto. }
  intros G D H. apply (derivable_pt_lim_plus (fun h => f (G h)) (fun h => g (G h))); auto.
Qed.
Lemma Af_scal n c f f' : Af n f f' -> Af n (fun x => c * f x)%R (fun x => c * f' x)%R.
Proof.
  intros [F1 F2]. split. { intros x y H. destruct (F1 x y H) as [-> ->]. auto. }
  intros G D H. apply (derivable_pt_lim_scal (fun h => f (G h))); auto.
Qed.
Lemma Af_bsum n m f f' : (forall i, i < m -> Af n (f i) (f' i)) -> Af n (fun x => bsum m (fun i => f i x)) (fun x => bsum m (fun i => f' i x)).
Proof.
  induction m as [|m IH]; intros H. { exact (Af_const n 0%R). }
  apply (Af_plus n (fun x => bsum m (fun i => f i x)) (fun x => bsum m (fun i => f' i x)) (f m) (f' m)); auto.
Qed.
Lemma Af_ext n f f' g g' : (forall x, f x = g x) -> (forall x, f' x = g' x) -> Af n f f' -> Af n g g'.
Proof.
  intros E E' [F1 F2]. split. { intros x y H. rewrite <- !E, <- !E'. auto. }
  intros G D H. rewrite <- E'. specialize (F2 G D H). intros eps He. destruct (F2 eps He) as [d Hd]. exists d. intros h Hh1 Hh2. rewrite <- !E. auto.
Qed.
Lemma Af_comp n m f f' (g g' : nat -> (nat -> R) -> R) : Af m f f' -> (forall l, l < m -> Af n (g l) (g' l)) -> Af n (fun x => f (fun l => g l x)) (fun x => f' (fun l => g' l x)).
Proof.
  intros [F1 F2] HG. split.
  - intros x y H. split.
    + apply F1. intros l Hl. now apply HG.
    + apply (F1 (fun l => g' l x)). intros l Hl. now apply HG.
  - intros G D H. apply (F2 (fun h l => g l (G h))). intros l Hl. now apply HG.
Qed.
Lemma Af_wip n W x : Af n (fun y => wip n W x y) (fun y => wip n W x y).
Proof.
  unfold wip. apply (Af_bsum n n (fun i y => bsum n (fun j => x i * wget W i j * y j)%R) (fun i y => bsum n (fun j => x i * wget W i j * y j)%R)).
  intros i Hi. apply (Af_bsum n n (fun j y => x i * wget W i j * y j)%R (fun j y => x i * wget W i j * y j)%R). intros j Hj.
  apply (Af_scal n (x i * wget W i j)%R (fun y => y j) (fun y => y j)). now apply Af_proj.
Qed.
Lemma Af_span r A i : Af r (fun y => span r A y i) (fun y => span r A y i).
Proof.
  unfold span. apply (Af_bsum r r (fun b y => mget A i b * y b)%R (fun b y => mget A i b * y b)%R). intros j Hj.
  apply (Af_scal r (mget A i j) (fun y => y j) (fun y => y j)). now apply Af_proj.
Qed.
(* the same functional of a block of the entries *)
Lemma Af_block n m off f f' : off + m <= n -> Af m f f' -> Af n (fun x => f (fun l => x (off + l))) (fun x => f' (fun l => x (off + l))).
Proof. intros H HF. apply (Af_comp n m f f' (fun l x => x (off + l)) (fun l x => x (off + l)) HF). intros l Hl. apply Af_proj. lia. Qed.

(* f is total on arrays with n rows, returns arrays of the same kind with n' rows *)
Definition total_on (n n' : nat) (f : arr -> res arr) : Prop := forall k a, shaped n k a -> exists b, f a = Ok b /\ shaped n' k b /\ same_kind a b.
Definition row_by (n p : nat) (f : arr -> res arr) (phi : (nat -> R) -> R) : Prop :=
  forall k a b, shaped n k a -> f a = Ok b -> forall j, j < k -> aget b p j = phi (fun l => aget a l j).
(* f acts columnwise by an affine map and g by its linear part *)
Definition maps (n n' : nat) (f g : arr -> res arr) : Prop :=
  total_on n n' f /\ total_on n n' g /\ forall p, p < n' -> exists phi phi', Af n phi phi' /\ row_by n p f phi /\ row_by n p g phi'.

Lemma finite_choice {T} (d : T) n (P : nat -> T -> Prop) : (forall l, l < n -> exists x, P l x) -> exists F, forall l, l < n -> P l (F l).
Proof.
  induction n as [|n IH]; intros H. { exists (fun _ => d). lia. }
  destruct IH as [F HF]; [intros; apply H; lia|]. destruct (H n ltac:(lia)) as [x Hx].
  exists (fun l => if l =? n then x else F l). intros l Hl. destruct (Nat.eqb_spec l n) as [->|]; auto. apply HF. lia.
Qed.
Lemma maps_id n : maps n n (@Ok arr) (@Ok arr).
Proof.
  assert (T : total_on n n (@Ok arr)) by (intros k a H; exists a; repeat split; auto; apply same_kind_refl).
  split; auto. split; auto. intros p Hp. exists (fun x => x p), (fun x => x p). split; [now apply Af_proj|]. split; intros k a b _ E j _; now injection E as <-.
Qed.
Lemma total_comp n1 n2 n3 f f2 : total_on n1 n2 f -> total_on n2 n3 f2 -> total_on n1 n3 (fun a => do b <- f a; f2 b).
Proof.
  intros H1 H2 k a Ha. destruct (H1 k a Ha) as (b & E & Sb & Kb). destruct (H2 k b Sb) as (c & E2 & Sc & Kc). exists c. rewrite E. cbn [bind].
  repeat split; auto. eapply same_kind_trans; eauto.
Qed.
Lemma maps_comp n1 n2 n3 f g f2 g2 : maps n1 n2 f g -> maps n2 n3 f2 g2 -> maps n1 n3 (fun a => do b <- f a; f2 b) (fun a => do b <- g a; g2 b).
Proof.
  intros (T1 & U1 & R1) (T2 & U2 & R2). split; [eapply total_comp; eauto|]. split; [eapply total_comp; eauto|]. intros p Hp.
  destruct (R2 p Hp) as (psi & psi' & HA & H1 & H2).
  destruct (finite_choice ((fun _ => 0%R) : (nat -> R) -> R, (fun _ => 0%R) : (nat -> R) -> R) n2
    (fun l x => Af n1 (fst x) (snd x) /\ row_by n1 l f (fst x) /\ row_by n1 l g (snd x))) as [F HF].
  { intros l Hl. destruct (R1 l Hl) as (phi & phi' & H). exists (phi, phi'). exact H. }
  exists (fun x => psi (fun l => fst (F l) x)), (fun x => psi' (fun l => snd (F l) x)). split; [|split].
  - apply (Af_comp n1 n2 psi psi' (fun l => fst (F l)) (fun l => snd (F l)) HA). intros l Hl. now apply HF.
  - intros k a c Ha E j Hj. destruct (T1 k a Ha) as (b & E1 & Sb & _). rewrite E1 in E. cbn [bind] in E. rewrite (H1 k b c Sb E j Hj).
    apply HA. intros l Hl. now apply (HF l Hl) with (k := k).
  - intros k a c Ha E j Hj. destruct (U1 k a Ha) as (b & E1 & Sb & _). rewrite E1 in E. cbn [bind] in E. rewrite (H2 k b c Sb E j Hj).
    apply (proj1 HA (fun l => aget b l j)). intros l Hl. now apply (HF l Hl) with (k := k).
Qed.
Lemma maps_ext n n' f g f2 g2 : (forall k a, shaped n k a -> f2 a = f a) -> (forall k a, shaped n k a -> g2 a = g a) -> maps n n' f g -> maps n n' f2 g2.
Proof.
  intros E E2 (T & U & HR). split; [|split].
  - intros k a Ha. rewrite (E k a Ha). auto.
  - intros k a Ha. rewrite (E2 k a Ha). auto.
  - intros p Hp. destruct (HR p Hp) as (phi & phi' & H & H1 & H2). exists phi, phi'. split; auto. split; intros k a b Ha Eb; [rewrite (E k a Ha) in Eb|rewrite (E2 k a Ha) in Eb]; eauto.
Qed.

(* ---- statements ------------------------------------------------------------------------------------------------------ *)
Lemma same_shape_shaped n k a b : same_shape a b -> shaped n k a -> shaped n k b /\ same_kind a b.
Proof.
  destruct a as [u|A], b as [v|B]; cbn; try tauto.
  - intros E [H ->]. unfold is_vec in *. repeat split; auto. lia.
  - intros E [H1 H2]. split; auto. split. { rewrite <- H1. symmetry. now apply map_length_eq. }
    rewrite Forall_forall in *. intros x Hx. assert (In (length x) (map (@length R) A)) by (rewrite E; now apply in_map).
    apply in_map_iff in H. destruct H as (y & Ey & Hy). rewrite <- Ey. auto.
Qed.
Lemma aget_cop n k o c a i j : okc n c -> shaped n k a -> i < n -> j < k ->
  aget (cop o c a) i j = aop_fun o (aget a i j) (match c with Sc x => x | Vc v => vget v i end).
Proof.
  intros Hc Ha Hi Hj. destruct a as [u|A]; cbn [shaped] in Ha; destruct c as [x|v]; cbn [cop allop rowop aget okc] in *.
  - destruct Ha as [Hu ->]. unfold vget, is_vec in *. now rewrite (nth_map_in _ u i 0%R 0%R) by lia.
  - destruct Ha as [Hu ->]. unfold vget, is_vec in *. now rewrite (map2_nth _ u v i 0%R 0%R 0%R) by lia.
  - destruct Ha as [H1 H2]. unfold mget. rewrite (nth_map_in _ A i [] []) by lia.
    rewrite Forall_forall in H2. assert (length (nth i A []) = k) by (apply H2, nth_In; lia). now rewrite (nth_map_in _ (nth i A []) j 0%R 0%R) by lia.
  - destruct Ha as [H1 H2]. unfold mget. rewrite (map2_nth _ A v i [] 0%R []) by lia.
    rewrite Forall_forall in H2. assert (length (nth i A []) = k) by (apply H2, nth_In; lia). now rewrite (nth_map_in _ (nth i A []) j 0%R 0%R) by lia.
Qed.
Lemma row_cop n o c i : okc n c -> i < n -> row_by n i (fun a => Ok (cop o c a)) (fun x => aop_fun o (x i) (match c with Sc x => x | Vc v => vget v i end)).
Proof. intros Hc Hi k a b Ha E j Hj. injection E as <-. now apply (aget_cop n k). Qed.
Lemma total_cop n o c : okc n c -> total_on n n (fun a => Ok (cop o c a)).
Proof. intros Hc k a Ha. exists (cop o c a). split; auto. apply (same_shape_shaped n k a); auto. apply cop_shape. now rewrite (shaped_alen _ _ _ Ha). Qed.
Lemma maps_stmt n o c : okc n c -> o <> IDiv -> maps n n (fun a => Ok (cop o c a)) (match o with IMul => (fun a => Ok (cop o c a)) | _ => (@Ok arr) end).
Proof.
  intros Hc Ho. split; [now apply total_cop|]. split. { destruct o; try (apply total_cop; auto); apply (maps_id n). }
  intros p Hp. destruct o; try congruence; cbn [aop_fun].
  - exists (fun x => x p + match c with Sc x => x | Vc v => vget v p end)%R, (fun x => x p + 0)%R.
    split; [apply Af_plus; [now apply Af_proj|apply Af_const]|]. split; [now apply (row_cop n IAdd)|]. intros k a b _ E j _. injection E as <-. ring.
  - exists (fun x => x p + - match c with Sc x => x | Vc v => vget v p end)%R, (fun x => x p + 0)%R.
    split; [apply Af_plus; [now apply Af_proj|apply Af_const]|]. split; [now apply (row_cop n ISub)|]. intros k a b _ E j _. injection E as <-. ring.
  - set (y := match c with Sc x => x | Vc v => vget v p end). exists (fun x => x p * y)%R, (fun x => x p * y)%R.
    assert (HR : row_by n p (fun a => Ok (cop IMul c a)) (fun x => x p * y)%R) by now apply (row_cop n IMul).
    split; [|auto]. apply (Af_ext n (fun x => y * x p)%R (fun x => y * x p)%R); try (intros; ring). now apply (Af_scal n y (fun x => x p) (fun x => x p)), Af_proj.
Qed.
Lemma maps_prog n p : okp n p -> nodiv p -> maps n n (fun a => Ok (pcop p a)) (fun a => Ok (pcop (linp p) a)).
Proof.
  induction p as [|[o c] p IH]; intros Hp Hd. { apply maps_id. }
  apply Forall_cons_iff in Hp, Hd. destruct Hp as [[Hc _] Hp], Hd as [Ho Hd]. cbn [s_op s_coef] in *.
  pose proof (maps_comp n n n _ _ _ _ (maps_stmt n o c Hc Ho) (IH Hp Hd)) as H. revert H. apply maps_ext; intros k a _; cbn [pcop fold_left linp filter s_op s_coef bind]; destruct o; reflexivity || congruence.
Qed.
Lemma maps_leaf n t p : leaf_ok n t p -> maps n n (transform t) (transform_ddts t).
Proof.
  intros (Hp & Hd & H). apply (maps_ext n n (fun a => Ok (pcop p a)) (fun a => Ok (pcop (linp p) a))); [| |now apply maps_prog].
  - intros k a Ha. pose proof (shaped_alen _ _ _ Ha) as Hl. destruct (H a Hl) as [-> _]. now destruct (exec_ok n p Hp a Hl) as [-> _].
  - intros k a Ha. pose proof (shaped_alen _ _ _ Ha) as Hl. destruct (H a Hl) as (_ & _ & ->). now destruct (exec_ok n (linp p) (linp_okp n p Hp) a Hl) as [-> _].
Qed.

(* ---- blocks ------------------------------------------------------------------------------------------------------------ *)
Lemma block_index ns p : p < lsumn ns -> exists i q, i < length ns /\ q < nth i ns 0 /\ p = lsumn (firstn i ns) + q.
Proof.
  revert p. induction ns as [|n ns IH]; intros p Hp. { cbn in Hp. lia. }
  cbn [lsumn fold_right] in Hp. fold (lsumn ns) in Hp. destruct (Nat.lt_ge_cases p n) as [H|H].
  - exists 0, p. cbn. repeat split; auto. lia.
  - destruct (IH (p - n)) as (i & q & H1 & H2 & H3); [lia|]. exists (S i), q. cbn [length nth firstn lsumn fold_right]. fold (lsumn (firstn i ns)). repeat split; auto; lia.
Qed.
Lemma block_end ns i : i < length ns -> lsumn (firstn (S i) ns) = lsumn (firstn i ns) + nth i ns 0 /\ lsumn (firstn i ns) + nth i ns 0 <= lsumn ns.
Proof.
  revert i. induction ns as [|n ns IH]; intros i Hi. { cbn in Hi. lia. }
  destruct i as [|i]. { cbn. fold (lsumn ns). lia. }
  cbn [length] in Hi. destruct (IH i ltac:(lia)) as [H1 H2]. cbn [nth]. change (firstn (S (S i)) (n :: ns)) with (n :: firstn (S i) ns). change (firstn (S i) (n :: ns)) with (n :: firstn i ns).
  cbn [lsumn fold_right]. fold (lsumn (firstn (S i) ns)) (lsumn (firstn i ns)) (lsumn ns). lia.
Qed.
Lemma nth_rows {A} (d : A) (l : list A) i m q : q < m -> nth q (firstn m (skipn i l)) d = nth (i + q) l d.
Proof.
  intros Hq. assert (E : forall (l : list A) m q, q < m -> nth q (firstn m l) d = nth q l d).
  { clear. intros l m. revert l. induction m as [|m IH]; intros l q Hq; [lia|]. destruct l; [now rewrite firstn_nil|]. destruct q; cbn; auto. apply IH. lia. }
  rewrite E by auto. clear E Hq. revert l. induction i as [|i IH]; intros l; cbn; auto. destruct l; cbn; [now destruct q|auto].
Qed.
Lemma aget_var_rows ns i a q j : i < length ns -> q < nth i ns 0 -> aget (var_rows ns i a) q j = aget a (lsumn (firstn i ns) + q) j.
Proof.
  intros Hi Hq. unfold var_rows, rows. destruct (block_end ns i Hi) as [E _]. rewrite E. replace (_ + _ - _) with (nth i ns 0) by lia.
  destruct a; cbn [aget]; unfold vget, mget; now rewrite nth_rows.
Qed.
Lemma var_rows_shaped ns k a i : shaped (lsumn ns) k a -> i < length ns -> shaped (nth i ns 0) k (var_rows ns i a) /\ same_kind a (var_rows ns i a).
Proof.
  intros Ha Hi. pose proof (split_shaped ns k a Ha) as H. rewrite <- var_rows_nth by auto.
  clear Ha. revert Hi H. generalize (split_rows ns a). intros l Hi H. revert i Hi. induction H as [|n x ns l H1 H IH]; intros i Hi; cbn in Hi; [lia|].
  destruct i; cbn; auto. apply IH. lia.
Qed.
(* functions applied block by block *)
Lemma maps_blocks (F G : arr -> res arr) (f g : nat -> arr -> res arr) ns rs :
  length ns = length rs -> total_on (lsumn ns) (lsumn rs) F -> total_on (lsumn ns) (lsumn rs) G ->
  (forall i, i < length ns -> maps (nth i ns 0) (nth i rs 0) (f i) (g i)) ->
  (forall k a b i, shaped (lsumn ns) k a -> F a = Ok b -> i < length ns -> f i (var_rows ns i a) = Ok (var_rows rs i b)) ->
  (forall k a b i, shaped (lsumn ns) k a -> G a = Ok b -> i < length ns -> g i (var_rows ns i a) = Ok (var_rows rs i b)) ->
  maps (lsumn ns) (lsumn rs) F G.
Proof.
  intros HL TF TG HM HF HG. split; auto. split; auto. intros p Hp. destruct (block_index rs p Hp) as (i & q & Hi & Hq & ->).
  destruct (HM i ltac:(lia)) as (_ & _ & HR). destruct (HR q Hq) as (phi & phi' & HA & H1 & H2).
  assert (Hi' : i < length ns) by lia. destruct (block_end ns i Hi') as [_ He].
  exists (fun x => phi (fun l => x (lsumn (firstn i ns) + l))), (fun x => phi' (fun l => x (lsumn (firstn i ns) + l))).
  split; [apply (Af_block (lsumn ns) (nth i ns 0) _ phi phi'); auto|].
  split; intros k a b Ha E j Hj; rewrite <- (aget_var_rows rs i b q j) by auto; destruct (var_rows_shaped ns k a i Ha Hi') as [Sa _].
  - rewrite (H1 k _ _ Sa (HF k a b i Ha E Hi') j Hj). apply HA. intros l Hl. now rewrite aget_var_rows.
  - rewrite (H2 k _ _ Sa (HG k a b i Ha E Hi') j Hj). apply (proj1 HA (fun l => aget (var_rows ns i a) l j)). intros l Hl. now rewrite aget_var_rows.
Qed.
Lemma Forall2_nth_iff {A B} (P : A -> B -> Prop) l l' d d' : Forall2 P l l' -> forall i, i < length l -> P (nth i l d) (nth i l' d').
Proof. induction 1; cbn; intros i Hi; [lia|]. destruct i; auto. apply IHForall2. lia. Qed.

Lemma multi_total (f : tf -> arr -> res arr) ns l : l <> [] -> Forall2 trained ns l ->
  (forall n t, trained n t -> In t l -> forall q, alen q = n -> exists y, f t q = Ok y /\ same_shape q y) ->
  forall a, alen a = lsumn ns -> exists b, multi_apply f (variable_sizes l) l a = Ok b /\ same_shape a b /\
    forall i, i < length ns -> f (nth i l (TMulti [])) (var_rows ns i a) = Ok (var_rows ns i b).
Proof.
  intros Hl H Hf a Ha. assert (Hns : ns <> []) by (intros ->; inversion H; congruence). assert (HD := variable_sizes_trained ns l H).
  destruct (multi_apply_ok trained f (fun _ _ => True) ns l (variable_sizes l) a) as [b [E1 [E2 [E3 _]]]]; auto.
  { intros n t Ht Hin q Hq. destruct (Hf n t Ht Hin q Hq) as (y & F1 & F2). eauto. }
  exists b. split; auto. split; auto. intros i Hi. pose proof (F2_length _ _ _ H) as HL.
  pose proof (zipM_nth f l (split_rows ns a) (split_rows ns b) (TMulti []) (V []) (V [])) as Z. rewrite split_rows_length in Z. specialize (Z (eq_sym HL) E3).
  destruct Z as [_ Z]. specialize (Z i ltac:(lia)). now rewrite !var_rows_nth in Z by auto.
Qed.
Lemma transform_shape n t : trained n t -> forall q, alen q = n -> (exists y, transform t q = Ok y /\ same_shape q y) /\ (exists y, transform_ddts t q = Ok y /\ same_shape q y).
Proof. intros H q Hq. destruct (C04_all t n H q 0%R q Hq (same_shape_refl q)) as (b & e & E1 & E2 & _ & E4 & E5). split; [exists b|exists e]; auto. Qed.
Lemma maps_transform t : forall n, trained n t -> maps n n (transform t) (transform_ddts t).
Proof.
  induction t as [r nm|c d nm|s|d nm|l nm IH|l IH] using tf_ind'; intros n H.
  1-4: (edestruct (leaf_prog n) as [p Hp]; [|exact H|eapply maps_leaf; exact Hp]; exact I).
  - apply trained_pipe in H. destruct H as [Hl H].
    apply (maps_ext n n (chain transform l) (chain transform_ddts l)). { intros k a _. cbn [transform]. now rewrite pipe_chain. } { intros k a _. cbn [transform_ddts]. now rewrite pipe_chain. }
    clear Hl. induction l as [|t l IHl]. { apply maps_id. }
    apply Forall_cons_iff in H, IH. destruct H as [Ht H], IH as [IHt IH].
    exact (maps_comp n n n _ _ _ _ (IHt n Ht) (IHl IH H)).
  - apply trained_multi in H. destruct H as [Hl [ns [-> H]]]. rewrite Forall_forall in IH. pose proof (F2_length _ _ _ H) as HL.
    pose proof (multi_total transform ns l Hl H (fun n t Ht _ q Hq => proj1 (transform_shape n t Ht q Hq))) as T1.
    pose proof (multi_total transform_ddts ns l Hl H (fun n t Ht _ q Hq => proj2 (transform_shape n t Ht q Hq))) as T2.
    apply (maps_blocks (transform (TMulti l)) (transform_ddts (TMulti l)) (fun i => transform (nth i l (TMulti []))) (fun i => transform_ddts (nth i l (TMulti []))) ns ns eq_refl).
    + intros k a Ha. destruct (T1 a (shaped_alen _ _ _ Ha)) as (b & E & Hs & _). exists b. split; auto. now apply same_shape_shaped.
    + intros k a Ha. destruct (T2 a (shaped_alen _ _ _ Ha)) as (b & E & Hs & _). exists b. split; auto. now apply same_shape_shaped.
    + intros i Hi. apply IH; [apply nth_In; lia|]. now apply (Forall2_nth_iff trained ns l 0 (TMulti [])).
    + intros k a b i Ha E Hi. destruct (T1 a (shaped_alen _ _ _ Ha)) as (b' & E' & _ & HH). cbn [transform] in E. rewrite E' in E. injection E as <-. auto.
    + intros k a b i Ha E Hi. destruct (T2 a (shaped_alen _ _ _ Ha)) as (b' & E' & _ & HH). cbn [transform_ddts] in E. rewrite E' in E. injection E as <-. auto.
Qed.

(* ---- bases ----------------------------------------------------------------------------------------------------------------- *)
Lemma maps_compress1 n r W A b : basis_of n r W A b -> maps n r (b_compress b) (b_compress b).
Proof.
  intros Hb. assert (T : total_on n r (b_compress b)) by (intros k a Ha; destruct (b_compress_ok n r k W A b a Hb Ha) as (q & E & S1 & K1 & _); eauto).
  split; auto. split; auto. intros p Hp. exists (wip n W (fun i => mget A i p)), (wip n W (fun i => mget A i p)). split; [apply Af_wip|].
  assert (HR : row_by n p (b_compress b) (wip n W (fun i => mget A i p))); [|auto]. intros k a q Ha E j Hj.
  destruct (b_compress_ok n r k W A b a Hb Ha) as (q' & E' & _ & _ & G). rewrite E' in E. injection E as <-. now apply G.
Qed.
Lemma maps_decompress1 n r W A b : basis_of n r W A b -> maps r n (fun q => b_decompress b q None) (fun q => b_decompress b q None).
Proof.
  intros Hb. assert (T : total_on r n (fun q => b_decompress b q None)) by (intros k a Ha; destruct (b_decompress_ok n r k W A b a Hb Ha) as (q & E & S1 & K1 & _); eauto).
  split; auto. split; auto. intros p Hp. exists (fun y => span r A y p), (fun y => span r A y p). split; [apply Af_span|].
  assert (HR : row_by r p (fun q => b_decompress b q None) (fun y => span r A y p)); [|auto]. intros k a q Ha E j Hj.
  destruct (b_decompress_ok n r k W A b a Hb Ha) as (q' & E' & _ & _ & G). rewrite E' in E. injection E as <-. now apply G.
Qed.
Lemma maps_compress n r b : orthonormal_basis n r b -> maps n r (rb_compress b) (rb_compress b).
Proof.
  destruct b as [b|bs]; cbn [orthonormal_basis rb_compress]. { intros (W & A & Hb & _). eapply maps_compress1; eauto. }
  intros (ns & rs & -> & -> & Hne & Hm & Ho). destruct (members_len _ _ _ Hm) as [L1 L2].
  set (d := BLin {| lb_entries := []; lb_weights := None; lb_n := None; lb_r := 0; lb_name := None |}).
  assert (T : total_on (lsumn ns) (lsumn rs) (bm_compress bs)) by (intros k a Ha; destruct (C12_comp ns rs bs k a Hm Hne Ha) as (q & E & S1 & K1 & _); eauto).
  apply (maps_blocks (bm_compress bs) (bm_compress bs) (fun i => b_compress (nth i bs d)) (fun i => b_compress (nth i bs d)) ns rs); auto; try lia.
  - intros i Hi. destruct (members_nth ns rs bs i (nth i bs d) Hm) as (_ & _ & A & W & Hb); [apply nth_error_nth'; lia|]. eapply maps_compress1; eauto.
  - intros k a q i Ha E Hi. destruct (C12_comp ns rs bs k a Hm Hne Ha) as (q' & E' & _ & _ & G). rewrite E' in E. injection E as <-. apply G. apply nth_error_nth'. lia.
  - intros k a q i Ha E Hi. destruct (C12_comp ns rs bs k a Hm Hne Ha) as (q' & E' & _ & _ & G). rewrite E' in E. injection E as <-. apply G. apply nth_error_nth'. lia.
Qed.
Lemma maps_decompress n r b : orthonormal_basis n r b -> maps r n (fun q => rb_decompress b q None) (fun q => rb_decompress b q None).
Proof.
  destruct b as [b|bs]; cbn [orthonormal_basis rb_decompress]. { intros (W & A & Hb & _). eapply maps_decompress1; eauto. }
  intros (ns & rs & -> & -> & Hne & Hm & Ho). destruct (members_len _ _ _ Hm) as [L1 L2]. pose proof (members_orth _ _ _ Hm Ho) as Hle.
  set (d := BLin {| lb_entries := []; lb_weights := None; lb_n := None; lb_r := 0; lb_name := None |}).
  assert (T : total_on (lsumn rs) (lsumn ns) (fun q => bm_decompress bs q None)) by (intros k a Ha; destruct (C12_decomp ns rs bs k a Hm Hne Hle Ha) as (q & E & S1 & K1 & _); eauto).
  apply (maps_blocks (fun q => bm_decompress bs q None) (fun q => bm_decompress bs q None) (fun i q => b_decompress (nth i bs d) q None) (fun i q => b_decompress (nth i bs d) q None) rs ns); auto; try lia.
  - intros i Hi. destruct (members_nth ns rs bs i (nth i bs d) Hm) as (_ & _ & A & W & Hb); [apply nth_error_nth'; lia|]. eapply maps_decompress1; eauto.
  - intros k a q i Ha E Hi. destruct (C12_decomp ns rs bs k a Hm Hne Hle Ha) as (q' & E' & _ & _ & G). rewrite E' in E. injection E as <-. apply G. apply nth_error_nth'. lia.
  - intros k a q i Ha E Hi. destruct (C12_decomp ns rs bs k a Hm Hne Hle Ha) as (q' & E' & _ & _ & G). rewrite E' in E. injection E as <-. apply G. apply nth_error_nth'. lia.
Qed.
(* compressing what has been decompressed *)
Lemma rb_round n r k b q : orthonormal_basis n r b -> shaped r k q -> exists x, rb_decompress b q None = Ok x /\ shaped n k x /\ same_kind q x /\ rb_compress b x = Ok q.
Proof.
  intros Hb Hq. destruct (maps_decompress n r b Hb) as (T & _). destruct (T k q Hq) as (x & E & Sx & Kx). exists x. repeat split; auto.
  destruct b as [b|bs]; cbn [orthonormal_basis rb_compress rb_decompress] in *.
  - destruct Hb as (W & A & Hb & Ho). destruct (C09_round n r k W A b q Hb Ho Hq) as (x' & E' & _ & F). congruence.
  - destruct Hb as (ns & rs & -> & -> & Hne & Hm & Ho). destruct (C12_round ns rs bs k q Hm Hne Ho Hq) as (x' & E' & _ & F). congruence.
Qed.

(* ---- columns ------------------------------------------------------------------------------------------------------------------ *)
Lemma shaped_col n a j : shaped n 1 (V (col n a j)). Proof. cbn. split; auto. unfold is_vec, col. now rewrite map_length, seq_length. Qed.
Lemma vget_col n a i j : i < n -> vget (col n a j) i = aget a i j.
Proof. intros Hi. unfold vget, col. rewrite (nth_map_in _ (seq 0 n) i 0%R 0) by (rewrite seq_length; auto). now rewrite seq_nth. Qed.
Lemma maps_columnwise n m f g : maps n m f g -> columnwise n m f.
Proof.
  intros (T & _ & HR) k a Ha b E. destruct (T k a Ha) as (b' & E' & Sb & Kb). rewrite E' in E. injection E as <-. split; auto. split; auto. intros j Hj.
  destruct (T 1 (V (col n a j)) (shaped_col n a j)) as (c & Ec & Sc & Kc). rewrite Ec. f_equal.
  apply (aget_ext m 1); auto. { apply shaped_col. }
  intros p i Hp Hi. assert (i = 0) by lia. subst i. destruct (HR p Hp) as (phi & phi' & HA & H1 & _). rewrite (H1 1 _ _ (shaped_col n a j) Ec 0 Hi). cbn [aget]. rewrite vget_col by auto.
  rewrite (H1 k a _ Ha E' j Hj). apply HA. intros l Hl. now rewrite vget_col.
Qed.
Lemma columnwise_comp n1 n2 n3 f g : columnwise n1 n2 f -> columnwise n2 n3 g -> columnwise n1 n3 (fun a => do b <- f a; g b).
Proof.
  intros H1 H2 k a Ha c E. destruct (f a) as [b|e] eqn:Eb; [|discriminate]. cbn [bind] in E. destruct (H1 k a Ha b Eb) as (Sb & Kb & C1). destruct (H2 k b Sb c E) as (Sc & Kc & C2).
  split; auto. split; [eapply same_kind_trans; eauto|]. intros j Hj. rewrite (C1 j Hj). cbn [bind]. auto.
Qed.
Lemma columnwise_id n : columnwise n n (@Ok arr). Proof. exact (maps_columnwise n n _ _ (maps_id n)). Qed.
Lemma col_same n k a b j : shaped n k a -> (forall i, i < n -> aget a i j = aget b i j) -> col n a j = col n b j.
Proof. intros _ H. unfold col. apply map_ext_in. intros i Hi. apply in_seq in Hi. apply H. lia. Qed.
(* inverse_transform, from the round trip *)
Lemma columnwise_inverse n t : trained n t -> columnwise n n (inverse_transform t None).
Proof.
  intros Ht k b Hb a E. pose proof (maps_columnwise _ _ _ _ (maps_transform t n Ht)) as HT.
  destruct (C01_all t n Ht b (shaped_alen _ _ _ Hb)) as [_ (a' & E1 & E2 & E3)]. rewrite E1 in E. injection E as <-.
  destruct (same_shape_shaped n k b a' E2 Hb) as [Sa Ka]. split; auto. split; auto. intros j Hj.
  destruct (HT k a' Sa b E3) as (_ & _ & C). specialize (C j Hj).
  pose proof (shaped_col n a' j) as Sc.
  destruct (C01_all t n Ht (V (col n a' j)) (shaped_alen _ _ _ Sc)) as [(y & F1 & _ & F3) _]. rewrite C in F1. injection F1 as <-. exact F3.
Qed.
