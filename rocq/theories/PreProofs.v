(* PreProofs.v -- lemmas about PreModel.v: inversion, locs, derivatives, joining. *)
From Coq Require Import ZArith.
From Verif Require Export SpecPre BlockAlg.
#[local] Open Scope nat_scope.

Lemma F2_length {A B} (P : A -> B -> Prop) l l' : Forall2 P l l' -> length l = length l'.
Proof. induction 1; cbn; auto. Qed.
Lemma F2_impl {A B} (P Q : A -> B -> Prop) l l' : (forall a b, P a b -> Q a b) -> Forall2 P l l' -> Forall2 Q l l'.
Proof. intros H. induction 1; constructor; auto. Qed.
Lemma concat_length' {A} (ls : list (list A)) : length (concat ls) = lsumn (map (@length A) ls).
Proof. induction ls as [|l ls IH]; auto. cbn. rewrite app_length, IH. reflexivity. Qed.
(* ---- induction over nested transformers ------------------------------------------------------------------------ *)
Lemma tf_ind' (P : tf -> Prop) :
  (forall r nm, P (TShift r nm)) -> (forall c n nm, P (TScale c n nm)) -> (forall s, P (TSS s)) -> (forall n nm, P (TNull n nm)) ->
  (forall l nm, Forall P l -> P (TPipe l nm)) -> (forall l, Forall P l -> P (TMulti l)) -> forall t, P t.
Proof. intros H1 H2 H3 H4 H5 H6. fix go 1. intros [r nm|c n nm|s|n nm|l nm|l];
  [apply H1|apply H2|apply H3|apply H4|apply H5|apply H6]; induction l; constructor; [apply go|assumption|apply go|assumption]. Qed.
Lemma trained_pipe n l nm : trained n (TPipe l nm) <-> l <> [] /\ Forall (trained n) l.
Proof. cbn [trained]. split; intros [Hl H]; split; auto; clear Hl; induction l as [|t l IH]; auto.
  - destruct H. constructor; auto. - apply Forall_cons_iff in H. destruct H as [H0 H]. split; [exact H0|exact (IH H)]. Qed.
Lemma trained_multi n l : trained n (TMulti l) <-> l <> [] /\ exists ns, n = lsumn ns /\ Forall2 trained ns l.
Proof. cbn [trained]. split; intros [Hl H]; split; auto; clear Hl; revert n H; induction l as [|t l IH]; intros n H.
  - exists []. split; auto.
  - destruct H as [a [b [-> [Ha Hb]]]]. destruct (IH b Hb) as [ns [-> Hns]]. exists (a :: ns). split; auto.
  - destruct H as [ns [-> H]]. inversion H; subst. reflexivity.
  - destruct H as [ns [-> H]]. inversion H as [|a ? ns' ? Ha Hns]; subst. exists a, (lsumn ns'). split; auto. split; auto. apply IH. eauto. Qed.
Lemma built_pipe l nm : built (TPipe l nm) <-> l <> [] /\ Forall built l.
Proof. cbn [built]. split; intros [Hl H]; split; auto; clear Hl; induction l as [|t l IH]; auto.
  - destruct H. constructor; auto. - apply Forall_cons_iff in H. destruct H as [H0 H]. split; [exact H0|exact (IH H)]. Qed.
Lemma built_multi l : built (TMulti l) <-> l <> [] /\ Forall built l.
Proof. cbn [built]. split; intros [Hl H]; split; auto; clear Hl; induction l as [|t l IH]; auto.
  - destruct H. constructor; auto. - apply Forall_cons_iff in H. destruct H as [H0 H]. split; [exact H0|exact (IH H)]. Qed.
Lemma flat_pipe l nm : flat (TPipe l nm) <-> Forall flat l.
Proof. cbn [flat]. split; intros H; induction l as [|t l IH]; auto.
  - destruct H. constructor; auto. - apply Forall_cons_iff in H. destruct H as [H0 H]. split; [exact H0|exact (IH H)]. Qed.
Lemma dim_multi l : tf_dim (TMulti l) = option_map lsumn (allsome (map tf_dim l)).
Proof. cbn [tf_dim]. induction l as [|t l IH]; auto. cbn [map allsome]. rewrite IH. destruct (tf_dim t) as [a|]; auto.
  destruct (allsome (map tf_dim l)); auto. Qed.
Lemma trained_dim t : forall n, trained n t -> tf_dim t = Some n.
Proof. induction t as [r nm|c d nm|s|d nm|l nm IH|l IH] using tf_ind'; intros n H.
  - cbn in *. congruence. - destruct H; auto. - destruct H; auto. - exact H.
  - apply trained_pipe in H. destruct H as [Hl H]. destruct l as [|t l]; [congruence|]. apply Forall_cons_iff in H, IH.
    destruct H as [Ht _], IH as [IHt _]. cbn [tf_dim]. rewrite (IHt n Ht). reflexivity.
  - apply trained_multi in H. destruct H as [_ [ns [-> H]]]. rewrite dim_multi. replace (allsome (map tf_dim l)) with (Some ns); auto.
    induction H as [|n t ns l Ht H IH']; auto. apply Forall_cons_iff in IH. destruct IH as [IHt IH]. cbn [map allsome]. rewrite (IHt n Ht), <- IH' by auto.
    reflexivity. Qed.

(* ---- arithmetic statements --------------------------------------------------------------------------------------- *)
Definition okc (n : nat) (c : coef) : Prop := match c with Sc _ => True | Vc v => length v = n end.
Definition cop (o : aop) (c : coef) (a : arr) : arr :=
  match c with Sc x => allop (aop_fun o) x a | Vc v => rowop (aop_fun o) v a end.
Definition nzc (c : coef) : Prop := match c with Sc x => x <> 0%R | Vc v => Forall (fun x => x <> 0%R) v end.
Lemma isnz_true x : isnz x = true <-> x <> 0%R.
Proof. unfold isnz. destruct (Req_EM_T x 0); split; congruence. Qed.
Lemma coef_nz_iff c : coef_nz c = true <-> nzc c.
Proof. destruct c as [x|v]; cbn; [apply isnz_true|]. rewrite forallb_forall, Forall_forall. split; intros H x Hx; apply isnz_true; auto. Qed.
Lemma exec1_ok o c a : okc (alen a) c -> (o = IDiv -> nzc c) -> exec1 (Stmt o c) a = Ok (cop o c a).
Proof. intros Hc Hd. unfold exec1. cbn [s_op s_coef].
  replace (match o with IDiv => negb (coef_nz c) | _ => false end) with false.
  2:{ destruct o; auto. specialize (Hd eq_refl). apply coef_nz_iff in Hd. rewrite Hd. reflexivity. }
  destruct c as [x|v]; auto. cbn in Hc. unfold bcast. rewrite Hc, Nat.eqb_refl. reflexivity. Qed.
(* every coefficient a statement accepts acts like one with an entry per row *)
Lemma exec1_inv o c a b : exec1 (Stmt o c) a = Ok b -> exists c', okc (alen a) c' /\ (nzc c -> nzc c') /\ b = cop o c' a /\ (o = IDiv -> nzc c').
Proof. unfold exec1. cbn [s_op s_coef]. destruct (match o with IDiv => negb (coef_nz c) | _ => false end) eqn:Ed; [discriminate|].
  assert (Hd : o = IDiv -> nzc c). { intros ->. apply coef_nz_iff. destruct (coef_nz c); auto; discriminate. }
  destruct c as [x|v]; intros H.
  - injection H as <-. exists (Sc x). cbn in *. auto.
  - unfold bcast in H. destruct (Nat.eqb_spec (length v) (alen a)) as [Hl|Hl].
    + cbn in H. injection H as <-. exists (Vc v). cbn in *. auto.
    + destruct v as [|x [|y v]]; try discriminate. cbn in H. injection H as <-. exists (Vc (repeat x (alen a))).
      split; [apply repeat_length|]. assert (Hz : nzc (Vc [x]) -> nzc (Vc (repeat x (alen a)))).
      { intros Hx. apply Forall_forall. intros y Hy. apply repeat_spec in Hy. subst. apply Forall_cons_iff in Hx. tauto. }
      split; auto. Qed.
Lemma map_length_eq (A B : mat) : map (@length R) A = map (@length R) B -> length A = length B.
Proof. intros H. rewrite <- (map_length (@length R) A), H, map_length. reflexivity. Qed.
Lemma same_shape_refl a : same_shape a a. Proof. destruct a; cbn; auto. Qed.
Lemma same_shape_sym a b : same_shape a b -> same_shape b a. Proof. destruct a, b; cbn; auto. Qed.
Lemma same_shape_trans a b c : same_shape a b -> same_shape b c -> same_shape a c. Proof. destruct a, b, c; cbn; intros; try tauto; congruence. Qed.
Lemma same_shape_alen a b : same_shape a b -> alen a = alen b.
Proof. destruct a, b; cbn; auto; try tauto. apply map_length_eq. Qed.
Lemma map2_rows_len (g : R -> R -> R) (m : mat) (v : vec) : length v = length m ->
  map (@length R) (map2 (fun row x => map (fun y => g y x) row) m v) = map (@length R) m.
Proof. revert v; induction m as [|r m IH]; intros [|x v] H; try discriminate; auto. cbn. rewrite map_length, IH; auto. Qed.
Lemma cop_shape o c a : okc (alen a) c -> same_shape a (cop o c a).
Proof. destruct c as [x|v], a as [u|m]; cbn; intros H.
  - rewrite map_length; auto. - rewrite map_map. apply map_ext. intros. rewrite map_length. reflexivity.
  - rewrite map2_length, H. lia. - rewrite map2_rows_len; auto. Qed.
Lemma cop_alen o c a : okc (alen a) c -> alen (cop o c a) = alen a.
Proof. intros H. symmetry. apply same_shape_alen, cop_shape; auto. Qed.
Definition undo (o : aop) : aop := match o with IAdd => ISub | ISub => IAdd | IMul => IDiv | IDiv => IMul end.
Lemma undo_fun o x y : (o = IMul \/ o = IDiv -> y <> 0%R) -> aop_fun (undo o) (aop_fun o x y) y = x.
Proof. destruct o; cbn; intros H; try ring; field; auto. Qed.
Lemma cop_undo o c a : okc (alen a) c -> (o = IMul \/ o = IDiv -> nzc c) -> cop (undo o) c (cop o c a) = a.
Proof. destruct c as [x|v], a as [u|m]; cbn; intros H Hz; f_equal.
  - rewrite map_map. rewrite <- (map_id u) at 2. apply map_ext. intros. apply undo_fun; auto.
  - rewrite map_map. rewrite <- (map_id m) at 2. apply map_ext. intros r. rewrite map_map. rewrite <- (map_id r) at 2. apply map_ext. intros. apply undo_fun; auto.
  - revert v H Hz. induction u as [|y u IH]; intros [|x v] H Hz; try discriminate; auto. cbn. f_equal.
    + apply undo_fun. intros Ho. specialize (Hz Ho). apply Forall_cons_iff in Hz. tauto.
    + apply IH; auto. intros Ho. specialize (Hz Ho). apply Forall_cons_iff in Hz. tauto.
  - revert v H Hz. induction m as [|y u IH]; intros [|x v] H Hz; try discriminate; auto. cbn. f_equal.
    + rewrite map_map. rewrite <- (map_id y) at 2. apply map_ext. intros. apply undo_fun. intros Ho. specialize (Hz Ho). apply Forall_cons_iff in Hz. tauto.
    + apply IH; auto. intros Ho. specialize (Hz Ho). apply Forall_cons_iff in Hz. tauto. Qed.
Lemma undo_undo o : undo (undo o) = o. Proof. destruct o; auto. Qed.

(* programs whose coefficients fit n rows; their inverse *)
Definition okp (n : nat) (p : list stmt) : Prop := Forall (fun s => okc n (s_coef s) /\ (s_op s = IMul \/ s_op s = IDiv -> nzc (s_coef s))) p.
Definition pcop (p : list stmt) (a : arr) : arr := fold_left (fun x s => cop (s_op s) (s_coef s) x) p a.
Definition invp (p : list stmt) : list stmt := rev (map (fun s => Stmt (undo (s_op s)) (s_coef s)) p).
Lemma exec_app p q a : exec (p ++ q) a = do b <- exec p a; exec q b.
Proof. revert a; induction p as [|s p IH]; intros a; auto. unfold exec in *. cbn [app chain]. destruct (exec1 s a); auto. cbn [bind]. apply IH. Qed.
Lemma exec_ok n p : okp n p -> forall a, alen a = n -> exec p a = Ok (pcop p a) /\ same_shape a (pcop p a).
Proof. induction p as [|[o c] p IH]; intros Hp a Ha; [split; [reflexivity|apply same_shape_refl]|].
  apply Forall_cons_iff in Hp. destruct Hp as [[Hc Hd] Hp]. cbn [s_op s_coef] in *. subst n. cbn [exec chain pcop fold_left s_op s_coef].
  unfold exec in *. cbn [chain]. rewrite exec1_ok by (auto; intros ->; auto). cbn [bind].
  destruct (IH Hp (cop o c a)) as [E1 E2]; [apply cop_alen; auto|]. split; [exact E1|].
  eapply same_shape_trans; [apply (cop_shape o c a Hc)|exact E2]. Qed.
Lemma okp_app n p q : okp n p -> okp n q -> okp n (p ++ q). Proof. intros. apply Forall_app; auto. Qed.
Lemma okp_inv n p : okp n p -> okp n (invp p).
Proof. intros H. unfold okp, invp. apply Forall_rev. apply Forall_map. eapply Forall_impl; [|exact H]. intros [o c] [H1 H2]. cbn in *. split; auto.
  intros Ho. apply H2. destruct o; cbn in Ho; destruct Ho; try discriminate; auto. Qed.
Lemma pcop_app p q a : pcop (p ++ q) a = pcop q (pcop p a). Proof. apply fold_left_app. Qed.
Lemma pcop_inv n p : okp n p -> forall a, alen a = n -> pcop (invp p) (pcop p a) = a.
Proof. induction p as [|[o c] p IH]; intros Hp a Ha; auto. apply Forall_cons_iff in Hp. destruct Hp as [[Hc Hd] Hp]. cbn [s_op s_coef] in *. subst n.
  unfold invp. cbn [map rev s_op s_coef]. rewrite pcop_app. change (pcop ({| s_op := o; s_coef := c |} :: p) a) with (pcop p (cop o c a)).
  fold (invp p). rewrite IH; auto; [|apply cop_alen; auto]. cbn. apply cop_undo; auto. Qed.
Lemma invp_invp p : invp (invp p) = p.
Proof. unfold invp. rewrite map_rev, rev_involutive, map_map. rewrite <- (map_id p) at 2. apply map_ext. intros [o c]. cbn. rewrite undo_undo. reflexivity. Qed.
Lemma exec_inv n p : okp n p -> forall a, alen a = n -> exists b, exec p a = Ok b /\ same_shape a b /\ exec (invp p) b = Ok a.
Proof. intros Hp a Ha. destruct (exec_ok n p Hp a Ha) as [E1 E2]. exists (pcop p a). split; auto. split; auto.
  destruct (exec_ok n (invp p) (okp_inv n p Hp) (pcop p a)) as [E3 _]; [rewrite <- Ha; symmetry; apply same_shape_alen; auto|].
  rewrite E3, (pcop_inv n); auto. Qed.

(* Forall2 over zipped members *)
Lemma allsome_map {A B} (f : A -> option B) l ys : Forall2 (fun a b => f a = Some b) l ys -> allsome (map f l) = Some ys.
Proof. induction 1 as [|a b l ys Hab H IH]; auto. cbn. rewrite Hab, IH. reflexivity. Qed.

(* ---- splitting into blocks of rows and putting them together ------------------------------------------------------- *)
Definition lsplit {A} (ns : list nat) (l : list A) : list (list A) :=
  map (fun i => slice (lsumn (firstn i ns)) (lsumn (firstn (S i) ns)) l) (seq 0 (length ns)).
Lemma cumsum_from_nth c ns i : i < length ns -> nth i (cumsum_from c ns) 0 = c + lsumn (firstn (S i) ns).
Proof. revert c i; induction ns as [|n ns IH]; intros c i Hi; [cbn in Hi; lia|]. destruct i as [|i]; [cbn; lia|].
  cbn [cumsum_from nth]. rewrite IH by (cbn in Hi; lia). cbn [firstn lsumn fold_right]. unfold lsumn. lia. Qed.
Lemma dimsum_nth ns i : i <= length ns -> nth i (dimsum ns) 0 = lsumn (firstn i ns).
Proof. intros Hi. unfold dimsum, cumsum. rewrite cumsum_from_nth by (cbn; lia). cbn. reflexivity. Qed.
Lemma lsplit_cons {A} n ns (u l : list A) : length u = n -> lsplit (n :: ns) (u ++ l) = u :: lsplit ns l.
Proof. intros <-. unfold lsplit. cbn [length seq map firstn]. f_equal.
  - cbn. rewrite Nat.add_0_r. apply slice_app_l.
  - rewrite <- seq_shift, map_map. apply map_ext. intros i. cbn [firstn]. change (lsumn (length u :: ?x)) with (length u + lsumn x).
    apply slice_app_r. Qed.
Lemma lsplit_concat {A} (ls : list (list A)) : lsplit (map (@length A) ls) (concat ls) = ls.
Proof. induction ls as [|u ls IH]; auto. cbn [map concat]. rewrite lsplit_cons, IH; auto. Qed.
Lemma concat_lsplit {A} ns : forall (l : list A), length l = lsumn ns -> concat (lsplit ns l) = l /\ map (@length A) (lsplit ns l) = ns.
Proof. induction ns as [|n ns IH]; intros l Hl.
  - destruct l; [auto|discriminate].
  - change (lsumn (n :: ns)) with (n + lsumn ns) in Hl. assert (Hu : length (firstn n l) = n) by (rewrite firstn_length; lia).
    rewrite <- (firstn_skipn n l). rewrite lsplit_cons by auto. destruct (IH (skipn n l)) as [E1 E2]; [rewrite skipn_length; lia|].
    cbn [concat map]. rewrite E1, E2, Hu. auto. Qed.
Lemma split_rows_V ns v : split_rows ns (V v) = map V (lsplit ns v).
Proof. unfold split_rows, lsplit. rewrite map_map. apply map_ext_in. intros i Hi. apply in_seq in Hi. cbn [aslice]. rewrite !dimsum_nth by lia. reflexivity. Qed.
Lemma split_rows_M ns v : split_rows ns (M v) = map M (lsplit ns v).
Proof. unfold split_rows, lsplit. rewrite map_map. apply map_ext_in. intros i Hi. apply in_seq in Hi. cbn [aslice]. rewrite !dimsum_nth by lia. reflexivity. Qed.
Lemma allsome_mapV vs : allsome (map a_isV (map V vs)) = Some vs.
Proof. induction vs as [|v vs IH]; auto. cbn. rewrite IH. reflexivity. Qed.
Lemma allsome_mapM ms : allsome (map a_isM (map M ms)) = Some ms.
Proof. induction ms as [|v vs IH]; auto. cbn. rewrite IH. reflexivity. Qed.
Lemma aconcat_V vs : vs <> [] -> aconcat (map V vs) = Ok (V (concat vs)).
Proof. destruct vs as [|v vs]; [congruence|]. intros _. unfold aconcat. change (map V (v :: vs)) with (V v :: map V vs) at 1.
  cbn iota. rewrite allsome_mapV. reflexivity. Qed.
Lemma aconcat_M vs : vs <> [] -> aconcat (map M vs) = Ok (M (concat vs)).
Proof. destruct vs as [|v vs]; [congruence|]. intros _. unfold aconcat. change (map M (v :: vs)) with (M v :: map M vs) at 1.
  cbn iota. rewrite allsome_mapM. reflexivity. Qed.
Lemma concat_split ns a : ns <> [] -> alen a = lsumn ns -> aconcat (split_rows ns a) = Ok a.
Proof. intros Hn Ha. assert (L : forall A (l : list A), lsplit ns l <> []).
  { intros A l E. apply (f_equal (@length _)) in E. unfold lsplit in E. rewrite map_length, seq_length in E. destruct ns; [congruence|discriminate]. }
  destruct a as [v|m]; cbn [alen] in Ha.
  - rewrite split_rows_V, aconcat_V by auto. f_equal. f_equal. apply concat_lsplit; auto.
  - rewrite split_rows_M, aconcat_M by auto. f_equal. f_equal. apply concat_lsplit; auto. Qed.
Lemma split_rows_length ns a : length (split_rows ns a) = length ns.
Proof. unfold split_rows. rewrite map_length, seq_length. reflexivity. Qed.
Lemma split_alens ns a : alen a = lsumn ns -> map alen (split_rows ns a) = ns.
Proof. intros Ha. destruct a as [v|m]; cbn [alen] in Ha; [rewrite split_rows_V|rewrite split_rows_M]; rewrite map_map; cbn [alen];
  apply (concat_lsplit ns); auto. Qed.
Lemma shapes_V vs ys : Forall2 same_shape (map V vs) ys -> exists ws, ys = map V ws /\ map (@length R) vs = map (@length R) ws.
Proof. revert ys; induction vs as [|v vs IH]; intros ys H; inversion H as [|? y ? ys' Hy Hys]; subst.
  - exists []. auto. - destruct (IH ys' Hys) as [ws [-> E]]. destruct y as [w|w]; [|destruct Hy]. exists (w :: ws). cbn. split; congruence. Qed.
Lemma shapes_M vs ys : Forall2 same_shape (map M vs) ys -> exists ws, ys = map M ws /\ map (map (@length R)) vs = map (map (@length R)) ws.
Proof. revert ys; induction vs as [|v vs IH]; intros ys H; inversion H as [|? y ? ys' Hy Hys]; subst.
  - exists []. auto. - destruct (IH ys' Hys) as [ws [-> E]]. destruct y as [w|w]; [destruct Hy|]. exists (w :: ws). cbn. split; auto.
    f_equal; auto. Qed.
(* blocks replaced by blocks of the same shapes *)
Lemma concat_replaced ns a ys : ns <> [] -> alen a = lsumn ns -> Forall2 same_shape (split_rows ns a) ys ->
  exists b, aconcat ys = Ok b /\ same_shape a b /\ split_rows ns b = ys.
Proof. intros Hn Ha H. assert (Hl : length ys = length ns) by (rewrite <- (F2_length _ _ _ H); apply split_rows_length).
  assert (Hy : ys <> []) by (intros ->; destruct ns; [congruence|discriminate]).
  destruct a as [v|m]; cbn [alen] in Ha.
  - rewrite split_rows_V in H. apply shapes_V in H. destruct H as [ws [-> E]]. destruct (concat_lsplit ns v Ha) as [E1 E2]. rewrite E2 in E.
    exists (V (concat ws)). rewrite aconcat_V by (intros ->; apply Hy; auto). split; auto. split.
    + cbn. rewrite <- (proj1 (concat_lsplit ns v Ha)), !concat_length', E2. rewrite E. reflexivity.
    + rewrite split_rows_V. rewrite E, lsplit_concat. reflexivity.
  - rewrite split_rows_M in H. apply shapes_M in H. destruct H as [ws [-> E]]. destruct (concat_lsplit ns m Ha) as [E1 E2].
    assert (E3 : map (@length _) (lsplit ns m) = map (@length _) ws).
    { apply (f_equal (map (@length _))) in E. rewrite !map_map in E. etransitivity; [|etransitivity; [exact E|]]; apply map_ext; intros; rewrite map_length; reflexivity. }
    rewrite E2 in E3.
    exists (M (concat ws)). rewrite aconcat_M by (intros ->; apply Hy; auto). split; auto. split.
    + cbn. rewrite <- E1 at 1. rewrite !concat_map, E. reflexivity.
    + rewrite split_rows_M. rewrite E3 at 1. rewrite lsplit_concat. reflexivity. Qed.

Lemma zipM_Ok {T X Y} (f : T -> X -> res Y) (P : X -> Y -> Prop) l : forall qs, Forall2 (fun t q => exists y, f t q = Ok y /\ P q y) l qs ->
  exists ys, zipM f l qs = Ok ys /\ Forall2 P qs ys.
Proof. intros qs H. induction H as [|t q l qs [y [E HP]] H [ys [E2 H2]]]; [exists []; auto|]. exists (y :: ys). cbn [zipM].
  rewrite E. cbn [bind]. change ((fix go (l : list T) (qs : list X) {struct l} : res (list Y) := match l with | [] => Ok [] | t :: l' => match qs with [] => Ok [] | q :: qs' => do y <- f t q; do ys <- go l' qs'; Ok (y :: ys) end end) l qs) with (zipM f l qs).
  rewrite E2. cbn. auto. Qed.

(* ---- the non-joining classes as programs ------------------------------------------------------------------------------ *)
Definition leaf (t : tf) : Prop := match t with TPipe _ _ | TMulti _ => False | _ => True end.
Definition linp (p : list stmt) : list stmt := filter (fun s => match s_op s with IMul => true | _ => false end) p.
Definition nodiv (p : list stmt) : Prop := Forall (fun s => s_op s <> IDiv) p.
Lemma check_shape_ok n a : alen a = n -> check_shape (Some n) a = Ok tt.
Proof. intros <-. cbn. rewrite Nat.eqb_refl. reflexivity. Qed.
Lemma exec1_bcast n c : nonzero_coef n c -> exists c', okc n c' /\ nzc c' /\
  (forall o a', alen a' = n -> exec1 (Stmt o c) a' = exec1 (Stmt o c') a').
Proof. intros Hc. destruct c as [x|v]; [exists (Sc x); cbn in *; auto|]. destruct Hc as [[Hl|Hl] Hz].
  - exists (Vc v). cbn. auto.
  - destruct v as [|x [|y v]]; try discriminate. exists (Vc (repeat x n)). apply Forall_cons_iff in Hz. destruct Hz as [Hx _].
    assert (HR : nzc (Vc (repeat x n))) by (apply Forall_forall; intros y Hy; apply repeat_spec in Hy; subst; auto).
    split; [apply repeat_length|]. split; auto. intros o a' Ha'. unfold exec1. cbn [s_op s_coef].
    assert (E1 : coef_nz (Vc [x]) = true) by (apply coef_nz_iff; repeat constructor; auto).
    assert (E2 : coef_nz (Vc (repeat x n)) = true) by (apply coef_nz_iff; auto). rewrite E1, E2.
    replace (bcast (alen a') [x]) with (@Ok (list R) (repeat x n)).
    + unfold bcast. rewrite repeat_length, Ha', Nat.eqb_refl. reflexivity.
    + rewrite Ha'. unfold bcast. destruct (Nat.eqb_spec (length [x]) n) as [E|E]; auto. cbn in E. rewrite <- E. reflexivity. Qed.
Lemma need_dim_some n : need_dim (Some n) = Ok tt. Proof. reflexivity. Qed.
Lemma ss_ready_trained n s : ss_ready n s -> ss_is_trained s = true.
Proof. intros [_ [Hm Hs]]. unfold ss_is_trained. apply negb_true_iff, orb_false_iff. split.
  - destruct (ss_cent s); auto. destruct (Hm eq_refl) as [m [-> _]]. reflexivity.
  - destruct (ss_scaling s); auto. specialize (Hs ltac:(discriminate)). destruct (ss_byrow s); destruct Hs as [al [be [-> [-> _]]]]; reflexivity. Qed.
Definition leaf_ok (n : nat) (t : tf) (p : list stmt) : Prop :=
  okp n p /\ nodiv p /\ forall a, alen a = n -> transform t a = exec p a /\ inverse_transform t None a = exec (invp p) a /\
    transform_ddts t a = exec (linp p) a.
Lemma exec_one s a : exec [s] a = exec1 s a. Proof. unfold exec. cbn [chain]. destruct (exec1 s a); reflexivity. Qed.
Lemma leaf_prog n t : leaf t -> trained n t -> exists p, leaf_ok n t p.
Proof. destruct t as [ref nm|c d nm|s|d nm|l nm|l]; cbn [leaf]; try tauto; intros _ H.
  - exists [Stmt ISub (Vc ref)]. split; [|split].
    + constructor; [|constructor]. cbn. split; auto. intros []; discriminate.
    + repeat constructor. discriminate.
    + intros a Ha. cbn [trained] in H. subst n. cbn [transform inverse_transform transform_ddts transform_prog inverse_prog ddts_prog].
      rewrite !check_shape_ok by auto. repeat split; reflexivity.
  - destruct H as [-> Hc]. destruct (exec1_bcast n c Hc) as [c1 [H1 [H2 H3]]].
    exists [Stmt IMul c1]. split; [|split].
    + constructor; [|constructor]. cbn. auto.
    + repeat constructor. discriminate.
    + intros a Ha. cbn [transform inverse_transform transform_ddts transform_prog inverse_prog ddts_prog].
      rewrite !check_shape_ok by auto. cbn [need_dim bind linp filter s_op invp map rev app s_coef undo]. rewrite !exec_one, !H3 by auto. auto.
  - assert (HT := ss_ready_trained n s H). destruct H as [Hn [Hm Hs]].
    set (pm := if ss_cent s then match ss_mean s with Some m => [Stmt ISub (Vc m)] | None => [] end else []).
    set (pc := match ss_scaling s, ss_scale s, ss_shift s with Some _, Some al, Some be => [Stmt IMul al; Stmt IAdd be] | _, _, _ => [] end).
    exists (pm ++ pc).
    assert (Hpm : okp n pm /\ nodiv pm /\ linp pm = [] /\ (if ss_cent s then ss_mean_prog ISub (ss_mean s) else Ok []) = Ok pm /\
      (if ss_cent s then match ss_mean s with None => Err AttributeError | Some m => Ok [Stmt IAdd (Vc m)] end else Ok []) = Ok (invp pm)).
    { unfold pm. destruct (ss_cent s); [|repeat split; constructor]. destruct (Hm eq_refl) as [m [-> Hl]]. repeat split.
      - constructor; [|constructor]. cbn. split; auto. intros []; discriminate. - repeat constructor; discriminate. }
    destruct Hpm as [P1 [P2 [P3 [P4 P5]]]].
    assert (Hpc : okp n pc /\ nodiv pc /\
      match ss_scaling s with None => Ok [] | Some _ => do al <- ss_coef (ss_byrow s) (ss_scale s); do be <- ss_coef (ss_byrow s) (ss_shift s); Ok [Stmt IMul al; Stmt IAdd be] end = Ok pc /\
      match ss_scaling s with None => Ok [] | Some _ => do be' <- ss_coef (ss_byrow s) (ss_shift s); do al' <- ss_coef (ss_byrow s) (ss_scale s); Ok [Stmt ISub be'; Stmt IDiv al'] end = Ok (invp pc) /\
      match ss_scaling s with None => Ok [] | Some _ => do al <- ss_coef (ss_byrow s) (ss_scale s); Ok [Stmt IMul al] end = Ok (linp pc)).
    { unfold pc. destruct (ss_scaling s); [|repeat split; constructor]. specialize (Hs ltac:(discriminate)).
      destruct (ss_byrow s); destruct Hs as [al [be [-> [-> Hz]]]]; repeat split.
      - destruct Hz as [L1 [L2 Hz]]. constructor; [|constructor; [|constructor]]; cbn; auto. split; auto. intros []; discriminate.
      - repeat constructor; discriminate.
      - constructor; [|constructor; [|constructor]]; cbn; auto. split; auto. intros []; discriminate.
      - repeat constructor; discriminate. }
    destruct Hpc as [Q1 [Q2 [Q3 [Q4 Q5]]]]. split; [apply okp_app; auto|]. split; [apply Forall_app; auto|].
    intros a Ha. cbn [transform inverse_transform transform_ddts transform_prog inverse_prog ddts_prog].
    unfold ss_transform_prog, ss_inverse_prog, ss_ddts_prog, ss_check_trained. rewrite HT, Hn, check_shape_ok by auto. cbn [bind].
    rewrite P4, Q3. cbn [bind]. rewrite Q4, Q5. cbn [bind]. rewrite P5. cbn [bind].
    replace (invp (pm ++ pc)) with (invp pc ++ invp pm) by (unfold invp; rewrite map_app, rev_app_distr; reflexivity).
    replace (linp (pm ++ pc)) with (linp pc) by (unfold linp in *; rewrite filter_app, P3; reflexivity). auto.
  - exists []. split; [constructor|]. split; [constructor|]. cbn in H. subst d. intros a Ha.
    cbn [transform inverse_transform transform_ddts transform_prog inverse_prog ddts_prog]. rewrite !check_shape_ok by auto. repeat split. Qed.

(* ---- pipelines of arbitrary members -------------------------------------------------------------------------------------- *)
Lemma chain_cons {T X} (f : T -> X -> res X) t l a : chain f (t :: l) a = do b <- f t a; chain f l b. Proof. reflexivity. Qed.
Lemma chain_rev_cons {T X} (f : T -> X -> res X) t l a : chain_rev f (t :: l) a = do b <- chain_rev f l a; f t b. Proof. reflexivity. Qed.
Lemma pipe_chain {T X} (f : T -> X -> res X) l a : l <> [] -> pipe f l a = chain f l a. Proof. destruct l; [congruence|reflexivity]. Qed.
Lemma pipe_rev_chain {T X} (f : T -> X -> res X) l a : l <> [] -> pipe_rev f l a = chain_rev f l a. Proof. destruct l; [congruence|reflexivity]. Qed.
Lemma chain_roundtrip {T X} (f g : T -> X -> res X) (D : X -> Prop) l :
  Forall (fun t => forall a, D a -> exists b, f t a = Ok b /\ D b /\ g t b = Ok a) l ->
  forall a, D a -> exists b, chain f l a = Ok b /\ D b /\ chain_rev g l b = Ok a.
Proof. induction l as [|t l IH]; intros H a Ha; [exists a; auto|]. apply Forall_cons_iff in H. destruct H as [Ht H].
  destruct (Ht a Ha) as [b [E1 [Hb E2]]]. destruct (IH H b Hb) as [c [E3 [Hc E4]]]. exists c.
  rewrite chain_cons, chain_rev_cons, E1. cbn [bind]. rewrite E3, E4. auto. Qed.
Lemma chain_roundtrip' {T X} (f g : T -> X -> res X) (D : X -> Prop) l :
  Forall (fun t => forall a, D a -> exists b, g t a = Ok b /\ D b /\ f t b = Ok a) l ->
  forall a, D a -> exists b, chain_rev g l a = Ok b /\ D b /\ chain f l b = Ok a.
Proof. induction l as [|t l IH]; intros H a Ha; [exists a; auto|]. apply Forall_cons_iff in H. destruct H as [Ht H].
  destruct (IH H a Ha) as [b [E1 [Hb E2]]]. destruct (Ht b Hb) as [c [E3 [Hc E4]]]. exists c.
  rewrite chain_cons, chain_rev_cons, E1. cbn [bind]. rewrite E3, E4. auto. Qed.

(* ---- C01 ------------------------------------------------------------------------------------------------------------------ *)
Definition inverts (n : nat) (t : tf) : Prop := forall a, alen a = n ->
  (exists b, transform t a = Ok b /\ same_shape a b /\ inverse_transform t None b = Ok a) /\
  (exists b, inverse_transform t None a = Ok b /\ same_shape a b /\ transform t b = Ok a).
Lemma leaf_inverts n t p : leaf_ok n t p -> inverts n t.
Proof. intros [Hp [_ H]] a Ha. split.
  - destruct (exec_inv n p Hp a Ha) as [b [E1 [E2 E3]]]. exists b. destruct (H a Ha) as [-> _].
    destruct (H b) as [_ [-> _]]; [rewrite <- Ha; symmetry; apply same_shape_alen; auto|]. auto.
  - destruct (exec_inv n (invp p) (okp_inv n p Hp) a Ha) as [b [E1 [E2 E3]]]. rewrite invp_invp in E3. exists b. destruct (H a Ha) as [_ [-> _]].
    destruct (H b) as [-> _]; [rewrite <- Ha; symmetry; apply same_shape_alen; auto|]. auto. Qed.
(* one direction of TransformerMulti, for any two member functions *)
Lemma Forall2_split_rel {T} (P : nat -> T -> Prop) (f : T -> arr -> res arr) (Q : arr -> arr -> Prop) ns l qs :
  Forall2 P ns l -> map alen qs = ns -> (forall n t, P n t -> In t l -> forall q, alen q = n -> exists y, f t q = Ok y /\ Q q y) ->
  Forall2 (fun t q => exists y, f t q = Ok y /\ Q q y) l qs.
Proof. intros H. revert qs. induction H as [|n t ns l Ht H IH]; intros qs E HP; destruct qs as [|q qs]; try discriminate; constructor.
  - injection E as E1 E2. apply (HP n t Ht (or_introl eq_refl)). auto.
  - injection E as E1 E2. apply IH; auto. intros n' t' H1 H2. apply (HP n' t' H1). right; auto. Qed.
Lemma variable_sizes_trained ns l : Forall2 trained ns l -> allsome (variable_sizes l) = Some ns.
Proof. unfold variable_sizes. induction 1 as [|n t ns l Ht H IH]; auto. cbn [map allsome]. rewrite (trained_dim t n Ht), IH. reflexivity. Qed.
Lemma multi_split_ok dims ns a : allsome dims = Some ns -> alen a = lsumn ns -> multi_split dims a = Ok (split_rows ns a).
Proof. intros E Ha. unfold multi_split, multi_check. rewrite E, Ha, Nat.eqb_refl. reflexivity. Qed.
Lemma allsome_length {A} (l : list (option A)) ys : allsome l = Some ys -> length l = length ys.
Proof. revert ys; induction l as [|[a|] l IH]; intros ys H; cbn in H; try discriminate; [injection H as <-; auto|].
  destruct (allsome l) as [zs|]; [|discriminate]. injection H as <-. cbn. f_equal. auto. Qed.
Lemma multi_apply_ok {T} (P : nat -> T -> Prop) (f : T -> arr -> res arr) (Q : arr -> arr -> Prop) ns l dims a :
  ns <> [] -> allsome dims = Some ns -> Forall2 P ns l -> alen a = lsumn ns ->
  (forall n t, P n t -> In t l -> forall q, alen q = n -> exists y, f t q = Ok y /\ same_shape q y /\ Q q y) ->
  exists b, multi_apply f dims l a = Ok b /\ same_shape a b /\ zipM f l (split_rows ns a) = Ok (split_rows ns b) /\
    Forall2 Q (split_rows ns a) (split_rows ns b).
Proof. intros Hn Hd HP Ha Hf. unfold multi_apply. rewrite (multi_split_ok dims ns) by auto. cbn [bind].
  destruct (zipM_Ok f (fun q y => same_shape q y /\ Q q y) l (split_rows ns a)) as [ys [E1 E2]].
  { eapply (Forall2_split_rel P); eauto. apply split_alens; auto. }
  rewrite E1. cbn [bind]. destruct (concat_replaced ns a ys) as [b [E3 [E4 E5]]]; auto.
  { eapply F2_impl; [|exact E2]. intros x y [? ?]; auto. }
  exists b. rewrite E3, E5. split; auto. split; auto. split; auto. eapply F2_impl; [|exact E2]. intros x y [? ?]; auto. Qed.
Lemma zipM_unique {T X Y} (f : T -> X -> res Y) l qs ys : zipM f l qs = Ok ys -> length l = length qs ->
  Forall2 (fun tq y => f (fst tq) (snd tq) = Ok y) (combine l qs) ys.
Proof. revert qs ys; induction l as [|t l IH]; intros [|q qs] ys E Hl; try discriminate; cbn in E.
  - injection E as <-. constructor.
  - destruct (f t q) as [y|] eqn:E1; [|discriminate]. cbn in E.
    change ((fix go (l : list T) (qs : list X) {struct l} : res (list Y) := match l with | [] => Ok [] | t :: l' => match qs with [] => Ok [] | q :: qs' => do y <- f t q; do ys <- go l' qs'; Ok (y :: ys) end end) l qs) with (zipM f l qs) in E.
    destruct (zipM f l qs) as [ys'|] eqn:E2; [|discriminate]. cbn in E. injection E as <-. cbn. constructor; auto. Qed.
Lemma zipM_of_Forall2 {T X Y} (f : T -> X -> res Y) l qs ys : length l = length qs ->
  Forall2 (fun tq y => f (fst tq) (snd tq) = Ok y) (combine l qs) ys -> zipM f l qs = Ok ys.
Proof. revert qs ys; induction l as [|t l IH]; intros [|q qs] ys Hl H; try discriminate; cbn in H.
  - inversion H. reflexivity.
  - inversion H as [|? y ? ys' H1 H2]; subst. cbn in H1. cbn. rewrite H1. cbn.
    change ((fix go (l : list T) (qs : list X) {struct l} : res (list Y) := match l with | [] => Ok [] | t :: l' => match qs with [] => Ok [] | q :: qs' => do y <- f t q; do ys <- go l' qs'; Ok (y :: ys) end end) l qs) with (zipM f l qs).
    rewrite (IH qs ys'); auto. Qed.
Lemma Forall2_swap_zip {T X} (f g : T -> X -> res X) l qs ys : length l = length qs ->
  Forall2 (fun tq y => f (fst tq) (snd tq) = Ok y) (combine l qs) ys ->
  (forall t q y, In t l -> f t q = Ok y -> g t y = Ok q) ->
  Forall2 (fun tq y => g (fst tq) (snd tq) = Ok y) (combine l ys) qs.
Proof. revert qs ys; induction l as [|t l IH]; intros [|q qs] ys Hl H HG; try discriminate; cbn in H.
  - inversion H. constructor.
  - inversion H as [|? y ? ys' H1 H2]; subst. cbn in *. constructor; [cbn; apply HG; auto|]. apply IH; auto. Qed.
Lemma Forall2_In_r {A B} (P : A -> B -> Prop) l l' b : Forall2 P l l' -> In b l' -> exists a, In a l /\ P a b.
Proof. induction 1 as [|x y l l' Hx H IH]; intros Hb; [destruct Hb|]. destruct Hb as [->|Hb]; [exists x; split; [left|]; auto|].
  destruct (IH Hb) as [a [H1 H2]]. exists a. split; [right|]; auto. Qed.
(* applying f then g block by block, each pair of calls giving back the block *)
Lemma multi_roundtrip {T} (P : nat -> T -> Prop) (f g : T -> arr -> res arr) ns l dims a :
  ns <> [] -> allsome dims = Some ns -> Forall2 P ns l -> alen a = lsumn ns ->
  (forall n t, P n t -> In t l -> forall q, alen q = n -> exists y, f t q = Ok y /\ same_shape q y /\ g t y = Ok q) ->
  exists b, multi_apply f dims l a = Ok b /\ same_shape a b /\ multi_apply g dims l b = Ok a.
Proof. intros Hn Hd HP Ha Hfg. destruct (multi_apply_ok P f (fun _ _ => True) ns l dims a) as [b [E1 [E2 [E3 _]]]]; auto.
  { intros n t H1 H2 q Hq. destruct (Hfg n t H1 H2 q Hq) as [y [? [? ?]]]. eauto. }
  exists b. split; auto. split; auto. assert (Hb : alen b = lsumn ns) by (rewrite <- Ha; symmetry; apply same_shape_alen; auto).
  unfold multi_apply. rewrite (multi_split_ok dims ns) by auto. cbn [bind].
  assert (HL : length l = length (split_rows ns a)) by (rewrite split_rows_length; symmetry; apply (F2_length _ _ _ HP)).
  assert (HS := split_alens ns a Ha).
  replace (zipM g l (split_rows ns b)) with (@Ok (list arr) (split_rows ns a)); [cbn; apply concat_split; auto|].
  symmetry. apply zipM_of_Forall2; [rewrite split_rows_length in *; auto|].
  assert (H3 := zipM_unique f l _ _ E3 HL). clear E3 E1 E2.
  generalize dependent (split_rows ns b). generalize dependent (split_rows ns a). clear Hb Ha a b Hd dims.
  revert Hn Hfg. induction HP as [|n t ns l Ht HP IH]; intros _ Hfg qs HL HS ys H3; destruct qs as [|q qs]; try discriminate.
  - inversion H3. constructor.
  - inversion H3 as [|? y ? ys' H4 H5]; subst. cbn in H4, HS. injection HS as HS1 HS2. cbn [combine]. constructor.
    + cbn. destruct (Hfg n t Ht (or_introl eq_refl) q HS1) as [y' [E1 [_ E2]]]. congruence.
    + destruct ns as [|n' ns]. { destruct qs; [|discriminate]. inversion HP; subst. inversion H5; subst. constructor. }
      apply IH; auto; try discriminate. intros n'' t' H1 H2. apply Hfg; auto. right; auto. Qed.
Lemma C01_all t : forall n, trained n t -> inverts n t.
Proof. induction t as [r nm|c d nm|s|d nm|l nm IH|l IH] using tf_ind'; intros n H.
  1-4: (edestruct (leaf_prog n) as [p Hp]; [|exact H|eapply leaf_inverts; exact Hp]; exact I).
  - apply trained_pipe in H. destruct H as [Hl H]. rewrite Forall_forall in H, IH.
    intros a Ha. cbn [transform inverse_transform]. split.
    + destruct (chain_roundtrip transform (fun t => inverse_transform t None) (fun b => same_shape a b) l) with (a := a) as [b [E1 [E2 E3]]].
      { apply Forall_forall. intros t Ht c Hc. destruct (IH t Ht n (H t Ht) c) as [[b [E1 [E2 E3]]] _]; [rewrite <- Ha; symmetry; apply same_shape_alen; auto|].
        exists b. split; auto. split; auto. eapply same_shape_trans; eauto. }
      { apply same_shape_refl. }
      exists b. rewrite pipe_chain, pipe_rev_chain by auto. auto.
    + destruct (chain_roundtrip' transform (fun t => inverse_transform t None) (fun b => same_shape a b) l) with (a := a) as [b [E1 [E2 E3]]].
      { apply Forall_forall. intros t Ht c Hc. destruct (IH t Ht n (H t Ht) c) as [_ [b [E1 [E2 E3]]]]; [rewrite <- Ha; symmetry; apply same_shape_alen; auto|].
        exists b. split; auto. split; auto. eapply same_shape_trans; eauto. }
      { apply same_shape_refl. }
      exists b. rewrite pipe_chain, pipe_rev_chain by auto. auto.
  - apply trained_multi in H. destruct H as [Hl [ns [-> H]]]. intros a Ha. rewrite Forall_forall in IH.
    assert (Hns : ns <> []) by (intros ->; inversion H; congruence). assert (HD := variable_sizes_trained ns l H).
    assert (EI : forall b, inverse_transform (TMulti l) None b = multi_apply (fun t => inverse_transform t None) (variable_sizes l) l b).
    { intros b. cbn [inverse_transform]. unfold multi_split_locs, multi_apply. rewrite HD. reflexivity. }
    cbn [transform]. split.
    + destruct (multi_roundtrip trained transform (fun t => inverse_transform t None) ns l (variable_sizes l) a) as [b [E1 [E2 E3]]]; auto.
      { intros n t Ht Hin q Hq. destruct (IH t Hin n Ht q Hq) as [HH _]. exact HH. }
      exists b. rewrite EI. auto.
    + destruct (multi_roundtrip trained (fun t => inverse_transform t None) transform ns l (variable_sizes l) a) as [b [E1 [E2 E3]]]; auto.
      { intros n t Ht Hin q Hq. destruct (IH t Hin n Ht q Hq) as [_ HH]. exact HH. }
      exists b. rewrite EI. auto. Qed.

(* ---- C04: transform is affine with linear part transform_ddts ------------------------------------------------------------- *)
Lemma acomb_shape a h d : same_shape a d -> same_shape a (acomb a h d).
Proof. destruct a as [u|A], d as [v|B]; cbn; try tauto; intros H.
  - rewrite map2_length. lia.
  - revert B H. induction A as [|r A IH]; intros [|s B] H; cbn in *; auto; try discriminate. injection H as H1 H2. rewrite map2_length.
    rewrite <- (IH B) by auto. f_equal. lia. Qed.
Lemma map2_affine_row (f : R -> R) (g : R -> R) h (u v : vec) : (forall x y, f (x + h * y)%R = (f x + h * g y)%R) -> length u = length v ->
  map f (map2 (fun x y => x + h * y)%R u v) = map2 (fun x y => x + h * y)%R (map f u) (map g v).
Proof. intros H. revert v; induction u as [|x u IH]; intros [|y v] E; try discriminate; auto. cbn. rewrite H, IH; auto. Qed.
Lemma cop_affine o c a h d : same_shape a d -> okc (alen a) c -> o <> IDiv ->
  cop o c (acomb a h d) = acomb (cop o c a) h (match o with IMul => cop o c d | _ => d end).
Proof. intros HS Hc Ho.
  assert (HF : forall x, exists g, (forall y z, aop_fun o (y + h * z)%R x = (aop_fun o y x + h * g z)%R) /\
     (g = match o with IMul => fun z => aop_fun o z x | _ => fun z => z end)).
  { intros x. eexists. split; [|reflexivity]. intros y z. destruct o; cbn; try ring. congruence. }
  destruct a as [u|A], d as [v|B]; try (destruct HS; fail); destruct c as [x|w]; cbn in HS, Hc.
  - destruct (HF x) as [g [H1 H2]]. cbn [acomb cop allop]. rewrite (map2_affine_row _ g) by auto.
    destruct o; subst g; cbn [acomb cop allop]; rewrite ?map_id; try reflexivity; congruence.
  - cbn [acomb cop rowop]. transitivity (V (map2 (fun x y => x + h * y)%R (map2 (aop_fun o) u w) (match o with IMul => map2 (aop_fun o) v w | _ => v end))).
    2:{ destruct o; reflexivity. } f_equal.
    revert v w HS Hc. induction u as [|y u IH]; intros [|z v] [|x w] HS Hc; try discriminate; [destruct o; reflexivity|].
    destruct (HF x) as [g [H1 H2]]. cbn [map2]. destruct o; subst g; cbn [map2]; try congruence; (f_equal; [apply H1|]); apply (IH v w); auto.
  - cbn [acomb cop allop]. transitivity (M (map2 (map2 (fun x y => x + h * y)%R) (map (map (fun y => aop_fun o y x)) A) (match o with IMul => map (map (fun y => aop_fun o y x)) B | _ => B end))).
    2:{ destruct o; reflexivity. } f_equal.
    revert B HS. induction A as [|y A IH]; intros [|z B] HS; try discriminate; [destruct o; reflexivity|].
    destruct (HF x) as [g [H1 H2]]. cbn in HS. injection HS as HS1 HS2. cbn [map2 map]. rewrite (map2_affine_row _ g) by auto.
    destruct o; subst g; cbn [map2 map]; rewrite ?map_id; try congruence; f_equal; apply (IH B); auto.
  - cbn [acomb cop rowop]. transitivity (M (map2 (map2 (fun x y => x + h * y)%R) (map2 (fun row x => map (fun y => aop_fun o y x) row) A w)
      (match o with IMul => map2 (fun row x => map (fun y => aop_fun o y x) row) B w | _ => B end))).
    2:{ destruct o; reflexivity. } f_equal.
    revert B w HS Hc. induction A as [|y A IH]; intros [|z B] [|x w] HS Hc; try discriminate; [destruct o; reflexivity|].
    destruct (HF x) as [g [H1 H2]]. cbn in HS. injection HS as HS1 HS2. cbn [map2]. rewrite (map2_affine_row _ g) by auto.
    destruct o; subst g; cbn [map2]; rewrite ?map_id; try congruence; f_equal; apply (IH B w); auto. Qed.
Lemma pcop_affine n p h : okp n p -> nodiv p -> forall a d, alen a = n -> same_shape a d ->
  pcop p (acomb a h d) = acomb (pcop p a) h (pcop (linp p) d) /\ same_shape (pcop p a) (pcop (linp p) d).
Proof. induction p as [|[o c] p IH]; intros Hp Hd a d Ha HS; [auto|]. apply Forall_cons_iff in Hp, Hd. destruct Hp as [[Hc _] Hp], Hd as [Ho Hd].
  cbn [s_op s_coef] in *. subst n. change (pcop ({| s_op := o; s_coef := c |} :: p) ?x) with (pcop p (cop o c x)). rewrite cop_affine by auto.
  assert (Hc' : okc (alen d) c) by (rewrite <- (same_shape_alen a d HS); auto).
  assert (HS' : same_shape (cop o c a) (match o with IMul => cop o c d | _ => d end)).
  { eapply same_shape_trans; [apply same_shape_sym, cop_shape; auto|]. destruct o; auto.
    eapply same_shape_trans; [exact HS|apply cop_shape; auto]. }
  destruct (IH Hp Hd (cop o c a) (match o with IMul => cop o c d | _ => d end)) as [E1 E2]; auto; [apply cop_alen; auto|].
  rewrite E1. destruct o; cbn [linp filter s_op] in *; auto. Qed.
Definition affine_on (n : nat) (t : tf) : Prop := forall a h d, alen a = n -> same_shape a d ->
  exists b e, transform t a = Ok b /\ transform_ddts t d = Ok e /\ transform t (acomb a h d) = Ok (acomb b h e) /\ same_shape a b /\ same_shape d e.
Lemma linp_okp n p : okp n p -> okp n (linp p).
Proof. intros H. apply Forall_forall. intros s Hs. apply filter_In in Hs. destruct Hs as [Hs _]. unfold okp in H. rewrite Forall_forall in H. auto. Qed.
Lemma leaf_affine n t p : leaf_ok n t p -> affine_on n t.
Proof. intros [Hp [Hd H]] a h d Ha HS. assert (Hd' : alen d = n) by (rewrite <- Ha; symmetry; apply same_shape_alen; auto).
  destruct (exec_ok n p Hp a Ha) as [E1 E2]. destruct (exec_ok n (linp p) (linp_okp n p Hp) d Hd') as [E3 E4].
  assert (HC : alen (acomb a h d) = n) by (rewrite <- Ha; symmetry; apply same_shape_alen, acomb_shape; auto).
  exists (pcop p a), (pcop (linp p) d). destruct (H a Ha) as [-> _]. destruct (H d Hd') as [_ [_ ->]]. destruct (H _ HC) as [-> _].
  destruct (exec_ok n p Hp _ HC) as [-> _]. destruct (pcop_affine n p h Hp Hd a d Ha HS) as [-> _]. auto. Qed.
Lemma slice_map2 {A B C} (f : A -> B -> C) u v i j : length u = length v -> slice i j (map2 f u v) = map2 f (slice i j u) (slice i j v).
Proof. unfold slice. generalize (j - i). clear j. intros m. revert u v. induction i as [|i IH]; intros u v E.
  - cbn [skipn]. revert u v E. induction m as [|m IH]; intros [|x u] [|y v] E; try discriminate; cbn; auto. f_equal. auto.
  - destruct u as [|x u], v as [|y v]; try discriminate; cbn [skipn map2]; auto. destruct m; reflexivity. Qed.
Lemma aslice_acomb i j a h d : same_shape a d -> aslice i j (acomb a h d) = acomb (aslice i j a) h (aslice i j d).
Proof. destruct a, d; cbn; try tauto; intros H; f_equal; apply slice_map2; auto. apply map_length_eq; auto. Qed.
Lemma split_acomb ns a h d : same_shape a d -> split_rows ns (acomb a h d) = map2 (fun x y => acomb x h y) (split_rows ns a) (split_rows ns d).
Proof. intros HS. unfold split_rows. rewrite map2_map, map2_same. apply map_ext. intros i. apply aslice_acomb; auto. Qed.
Lemma aslice_shape i j a d : same_shape a d -> same_shape (aslice i j a) (aslice i j d).
Proof. destruct a as [u|A], d as [v|B]; cbn; try tauto; intros H; unfold slice.
  - rewrite !firstn_length, !skipn_length, H. reflexivity.
  - rewrite <- !firstn_map, <- !skipn_map, H. reflexivity. Qed.
Lemma split_shape ns a d : same_shape a d -> Forall2 same_shape (split_rows ns a) (split_rows ns d).
Proof. intros HS. unfold split_rows. induction (seq 0 (length ns)); cbn; constructor; auto. apply aslice_shape; auto. Qed.
Lemma C04_all t : forall n, trained n t -> affine_on n t.
Proof. induction t as [r nm|c d nm|s|d nm|l nm IH|l IH] using tf_ind'; intros n H.
  1-4: (edestruct (leaf_prog n) as [p Hp]; [|exact H|eapply leaf_affine; exact Hp]; exact I).
  - apply trained_pipe in H. destruct H as [Hl H]. intros a h d Ha HS. cbn [transform transform_ddts]. rewrite !pipe_chain by auto. clear Hl.
    revert a d Ha HS. induction l as [|t l IHl]; intros a d Ha HS.
    + exists a, d. repeat split; auto; apply same_shape_refl.
    + apply Forall_cons_iff in H, IH. destruct H as [Ht H], IH as [IHt IH]. destruct (IHt n Ht a h d Ha HS) as [b [e [E1 [E2 [E3 [E4 E5]]]]]].
      rewrite !chain_cons, E1, E2, E3. cbn [bind].
      destruct (IHl IH H b e) as [b' [e' [F1 [F2 [F3 [F4 F5]]]]]].
      { rewrite <- Ha. symmetry. apply same_shape_alen; auto. }
      { eapply same_shape_trans; [apply same_shape_sym; exact E4|]. eapply same_shape_trans; [exact HS|exact E5]. }
      exists b', e'. repeat split; auto; eapply same_shape_trans; eauto.
  - apply trained_multi in H. destruct H as [Hl [ns [-> H]]]. intros a h d Ha HS. rewrite Forall_forall in IH.
    assert (Hns : ns <> []) by (intros ->; inversion H; congruence). assert (HD := variable_sizes_trained ns l H).
    assert (Hd' : alen d = lsumn ns) by (rewrite <- Ha; symmetry; apply same_shape_alen; auto).
    assert (HC : alen (acomb a h d) = lsumn ns) by (rewrite <- Ha; symmetry; apply same_shape_alen, acomb_shape; auto).
    cbn [transform transform_ddts].
    destruct (multi_apply_ok trained transform (fun _ _ => True) ns l (variable_sizes l) a) as [b [E1 [E2 [E3 _]]]]; auto.
    { intros n t Ht Hin q Hq. destruct (IH t Hin n Ht q h q Hq (same_shape_refl q)) as [y [e [F1 [_ [_ [F4 _]]]]]]. eauto. }
    destruct (multi_apply_ok trained transform_ddts (fun _ _ => True) ns l (variable_sizes l) d) as [e [F1 [F2 [F3 _]]]]; auto.
    { intros n t Ht Hin q Hq. destruct (IH t Hin n Ht q h q Hq (same_shape_refl q)) as [y [e [_ [G1 [_ [_ G4]]]]]]. eauto. }
    exists b, e. rewrite E1, F1. split; auto. split; auto. split; [|auto].
    assert (HBE : same_shape b e). { eapply same_shape_trans; [apply same_shape_sym; exact E2|]. eapply same_shape_trans; [exact HS|exact F2]. }
    assert (HBC : alen (acomb b h e) = lsumn ns) by (rewrite <- Ha, (same_shape_alen a b E2); symmetry; apply same_shape_alen, acomb_shape; auto).
    unfold multi_apply. rewrite (multi_split_ok _ ns) by auto. cbn [bind].
    replace (zipM transform l (split_rows ns (acomb a h d))) with (@Ok (list arr) (split_rows ns (acomb b h e))); [cbn; apply concat_split; auto|].
    symmetry. rewrite !split_acomb by auto.
    assert (HL : length l = length ns) by (symmetry; apply (F2_length _ _ _ H)).
    apply zipM_unique in E3; [|rewrite split_rows_length; auto]. apply zipM_unique in F3; [|rewrite split_rows_length; auto].
    apply zipM_of_Forall2; [rewrite map2_length, !split_rows_length; lia|].
    assert (S1 := split_alens ns a Ha). assert (S2 := split_shape ns a d HS).
    clear E1 E2 F1 F2 HBE HBC Hd' HC HD HL HS Ha.
    generalize dependent (split_rows ns b). generalize dependent (split_rows ns e). generalize dependent (split_rows ns a). generalize dependent (split_rows ns d).
    clear Hl Hns a b d e. induction H as [|n t ns l Ht H IH']; intros ds qs S1 S2 es F3 bs E3.
    + cbn in E3. inversion E3; subst. constructor.
    + destruct qs as [|q qs]; [discriminate|]. destruct ds as [|d ds]; [inversion S2|]. cbn in S1. injection S1 as S1a S1b.
      inversion S2 as [|? ? ? ? S2a S2b]; subst. cbn [combine] in E3, F3. inversion E3 as [|? b ? bs' E3a E3b]; subst. inversion F3 as [|? e ? es' F3a F3b]; subst.
      cbn [fst snd] in *. cbn [map2 combine]. constructor.
      * cbn. destruct (IH t (or_introl eq_refl) _ Ht q h d eq_refl S2a) as [b' [e' [G1 [G2 [G3 _]]]]]. congruence.
      * eapply IH'; eauto. intros t' Ht'. apply IH. right; auto. Qed.
