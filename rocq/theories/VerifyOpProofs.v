(* VerifyOpProofs.v -- what verify() of the library's operators does. *)
From Coq Require Import String ZArith Lra Lia.
From Verif Require Import MatAlg LinAlg OpsProofs JacProofs GalProofs AffProofs MonoEq SaveOps SaveFile VerifyTf.
From Verif Require Import SpecVerifyOp.
#[local] Open Scope string_scope.
#[local] Open Scope nat_scope.
#[local] Open Scope list_scope.

Lemma bclose_vec u v : length u = length v -> bclose (V u) (V v) = Ok (forallb (fun j => rclose (vget u j) (vget v j)) (seq 0 (length u))).
Proof.
  intros E. unfold bclose, as2. change (nrows [u]) with 1. change (nrows [v]) with 1. change (ncols [u]) with (length u). change (ncols [v]) with (length v).
  change (bcdim 1 1) with (Some 1). unfold bcdim. rewrite E, Nat.eqb_refl. f_equal. change (seq 0 1) with [0]. cbn [forallb]. rewrite Bool.andb_true_r. change (bidx 1 0) with 0.
  assert (K : forall n l, (forall j, In j l -> j < n) -> forallb (fun j => rclose (mget [u] 0 (bidx n j)) (mget [v] 0 (bidx n j))) l = forallb (fun j => rclose (vget u j) (vget v j)) l).
  { intros n l. induction l as [|j l IH]; intros H; auto. cbn [forallb]. rewrite IH by (intros; apply H; right; auto). f_equal. unfold bidx.
    destruct (Nat.eqb_spec n 1) as [->|]; [|reflexivity]. assert (j = 0) as -> by (specialize (H j (or_introl eq_refl)); lia). reflexivity. }
  apply K. intros j Hj. apply in_seq in Hj. lia.
Qed.
Lemma rclose_refl x : rclose x x = true.
Proof.
  unfold rclose, rleb. destruct (Rle_dec _ _) as [|N]; auto. exfalso. apply N. rewrite Rminus_diag_eq, Rabs_R0 by auto. pose proof (Rabs_pos x).
  apply Rplus_le_le_0_compat; [|apply Rmult_le_pos; auto]; left; apply Rinv_0_lt_compat; apply pow_lt; lra.
Qed.
Lemma bcdim_common a b n : bcdim a b = Some n <-> common a b n.
Proof.
  unfold bcdim, common. destruct (Nat.eqb_spec a b) as [->|]; [split; [intros K; injection K as <-; lia|intros K; f_equal; lia]|].
  destruct (Nat.eqb_spec a 1); [split; [intros K; injection K as <-; lia|intros K; f_equal; lia]|].
  destruct (Nat.eqb_spec b 1); [split; [intros K; injection K as <-; lia|intros K; f_equal; lia]|]. split; [discriminate|lia].
Qed.
Lemma bclose_iff x y : bclose x y = Ok true <-> all_close x y.
Proof.
  assert (G : forall a i j, mget (as2 a) (bidx (nrows (as2 a)) i) (bidx (ncols (as2 a)) j) = entry_of a i j) by (intros [v|A] i j; reflexivity).
  assert (HR : forall a, nrows (as2 a) = rows_of a) by (intros [v|A]; reflexivity). assert (HC : forall a, ncols (as2 a) = cols_of a) by (intros [v|A]; reflexivity).
  assert (L : forall a b, rclose a b = true <-> (Rabs (a - b) <= / 10 ^ 8 + / 10 ^ 5 * Rabs b)%R) by (intros a b; unfold rclose, rleb; destruct (Rle_dec _ _); split; auto; discriminate || contradiction).
  unfold bclose, all_close. cbv zeta. rewrite !HR, !HC. split.
  - destruct (bcdim (rows_of x) (rows_of y)) as [n|] eqn:E1; [|discriminate]. destruct (bcdim (cols_of x) (cols_of y)) as [k|] eqn:E2; [|discriminate]. apply bcdim_common in E1, E2.
    intros K. injection K as K. exists n, k. split; auto. split; auto. intros i j Hi Hj. rewrite forallb_forall in K. specialize (K i ltac:(apply in_seq; lia)). rewrite forallb_forall in K. specialize (K j ltac:(apply in_seq; lia)).
    apply L. rewrite <- !G, !HR, !HC. exact K.
  - intros (n & k & E1 & E2 & K). apply bcdim_common in E1, E2. rewrite E1, E2. f_equal. apply forallb_forall. intros i Hi. apply forallb_forall. intros j Hj. apply in_seq in Hi, Hj.
    apply L. specialize (K i j ltac:(lia) ltac:(lia)). rewrite <- !G, !HR, !HC in K. exact K.
Qed.
Lemma bclose_refl v : bclose (V v) (V v) = Ok true.
Proof. rewrite bclose_vec by auto. f_equal. apply forallb_forall. intros. apply rclose_refl. Qed.
Lemma each_ok f l : (forall i, In i l -> f i = Ok tt) -> each f l = Ok tt.
Proof. induction l as [|i l IH]; intros H; auto. cbn [each]. rewrite H by (left; auto). cbn [bind]. apply IH. intros; apply H; right; auto. Qed.
Lemma each_inv f l : each f l = Ok tt -> forall i, In i l -> f i = Ok tt.
Proof. induction l as [|i l IH]; intros H j Hj; [destruct Hj|]. cbn [each] in H. destruct (f i) as [[]|] eqn:E; [|discriminate]. cbn [bind] in H. destruct Hj as [<-|Hj]; auto. Qed.

(* ---- finite differences ------------------------------------------------------------------------------------------------- *)
Lemma nth_eye r b : b < r -> is_vec r (nth b (eye r) []) /\ forall j, j < r -> vget (nth b (eye r) []) j = if b =? j then 1%R else 0%R.
Proof.
  intros Hb. unfold eye. rewrite (nth_map_in _ _ b _ 0) by (rewrite seq_length; auto). rewrite seq_nth by auto. cbn [plus Nat.add]. split.
  - unfold is_vec. now rewrite map_length, seq_length.
  - intros j Hj. unfold vget. rewrite (nth_map_in _ _ j _ 0) by (rewrite seq_length; auto). rewrite seq_nth by auto. reflexivity.
Qed.
Lemma bump_along r x h b : is_vec r x -> b < r -> bump x h b = along x (nth b (eye r) []) h.
Proof.
  intros Hx Hb. unfold bump, along. apply map_ext_in. intros j Hj. apply in_seq in Hj. unfold is_vec in Hx. rewrite (proj2 (nth_eye r b Hb)) by lia. reflexivity.
Qed.
Lemma is_vec_along' r x d h : is_vec r x -> is_vec r (along x d h).
Proof. intros H. unfold is_vec, along. now rewrite map_length, seq_length. Qed.
Lemma quotients_mat r f x h : is_mat r r (quotients r f x h).
Proof. unfold quotients. split; [now rewrite map_length, seq_length|]. apply Forall_forall. intros l Hl. apply in_map_iff in Hl. destruct Hl as (a & <- & _). now rewrite map_length, seq_length. Qed.
Lemma mget_quotients r f x h a b : a < r -> b < r -> mget (quotients r f x h) a b = ((vget (f (along x (nth b (eye r) []) h)) a - vget (f x) a) / h)%R.
Proof.
  intros Ha Hb. unfold mget, quotients, vget at 1. rewrite (nth_map_in _ _ a _ 0) by (rewrite seq_length; auto). rewrite seq_nth by auto. cbn [Nat.add].
  rewrite (nth_map_in _ _ b _ 0) by (rewrite seq_length; auto). rewrite seq_nth by auto. reflexivity.
Qed.
Lemma gradient_ok r F f x h : 0 < r -> is_vec r x -> (forall q, is_vec r q -> F (V q) = Ok (V (f q)) /\ is_vec r (f q)) -> fd_gradient F x h = Ok (quotients r f x h).
Proof.
  intros Hr Hx HF. unfold fd_gradient. rewrite Hx.
  set (g := fun b => map2 (fun s t => ((s - t) / h)%R) (f (along x (nth b (eye r) []) h)) (f x)).
  assert (Lg : forall b, is_vec r (g b)).
  { intros b. unfold g, is_vec. rewrite map2_length. destruct (HF (along x (nth b (eye r) []) h) (is_vec_along' r x _ h Hx)) as [_ A]. destruct (HF x Hx) as [_ B].
    unfold is_vec in A, B. rewrite A, B. lia. }
  rewrite (AffProofs.mapM_ok _ g).
  2:{ intros b Hb. apply in_seq in Hb. unfold diffq. rewrite (bump_along r) by (auto; lia). destruct (HF (along x (nth b (eye r) []) h) (is_vec_along' r x _ h Hx)) as [A LA]. destruct (HF x Hx) as [B LB].
      rewrite A. cbn [bind]. rewrite B. cbn [bind]. unfold is_vec in LA, LB. now rewrite LA, LB, Nat.eqb_refl. }
  cbn [bind]. replace (forallb _ _) with true.
  2:{ symmetry. apply forallb_forall. intros c Hc. apply in_map_iff in Hc. destruct Hc as (b & <- & _). apply Nat.eqb_eq. rewrite Hx. apply Lg. }
  f_equal. assert (HG : is_mat r r (map g (seq 0 r))).
  { split; [now rewrite map_length, seq_length|]. apply Forall_forall. intros c Hc. apply in_map_iff in Hc. destruct Hc as (b & <- & _). apply Lg. }
  apply (mat_ext r r); [apply is_mat_mT; auto|apply quotients_mat|]. intros a b Ha Hb. rewrite (mget_mT r r) by auto. rewrite mget_quotients by auto.
  unfold mget. rewrite (nth_map_in g _ b _ 0) by (rewrite seq_length; auto). rewrite seq_nth by auto. cbn [Nat.add]. unfold g, vget.
  destruct (HF (along x (nth b (eye r) []) h) (is_vec_along' r x _ h Hx)) as [_ LA]. destruct (HF x Hx) as [_ LB]. unfold is_vec in LA, LB.
  rewrite (map2_nth _ _ _ _ 0%R 0%R) by lia. reflexivity.
Qed.
Lemma is_mat_shape n k A : 0 < n -> is_mat n k A -> shape_is n k A = true.
Proof. intros Hn HA. unfold shape_is, nrows. now rewrite (is_mat_len _ _ _ HA), (ncols_is_mat n k A HA Hn), !Nat.eqb_refl. Qed.
Lemma steps_in h : In h steps <-> exists i, 1 <= i <= 10 /\ h = (/ 10 ^ i)%R.
Proof.
  unfold steps. rewrite in_map_iff. split.
  - intros (i & <- & Hi). apply in_seq in Hi. exists (S i). split; [lia|auto].
  - intros (i & Hi & ->). exists (i - 1). split; [do 3 f_equal; lia|apply in_seq; lia].
Qed.
Lemma fd_verdict r F f df x tol J : 0 < r -> is_vec r x -> (forall q, is_vec r q -> F (V q) = Ok (V (f q)) /\ is_vec r (f q)) -> (0 <= tol)%R ->
  df x = Ok (JvMat J) -> is_mat r r J ->
  (fd_check F df r x tol = Ok tt \/ fd_check F df r x tol = Err VerificationError) /\ (fd_check F df r x tol = Ok tt <-> fd_agrees r tol f x J).
Proof.
  intros Hr Hx HF Ht EJ HJ. unfold fd_check. rewrite EJ. cbn [bind]. rewrite (is_mat_shape r r J) by auto. cbn [bind].
  rewrite (AffProofs.mapM_ok _ (quotients r f x)) by (intros; apply gradient_ok; auto). cbn [bind].
  assert (K : forallb (fun G => exceeds G J tol) (map (quotients r f x) steps) = false <-> fd_agrees r tol f x J).
  { rewrite <- Bool.not_true_iff_false, forallb_forall. split.
    - intros N. destruct (existsb (fun G => negb (exceeds G J tol)) (map (quotients r f x) steps)) eqn:E.
      + apply existsb_exists in E. destruct E as (G & HG & E). apply in_map_iff in HG. destruct HG as (h & <- & Hh). apply steps_in in Hh. destruct Hh as (i & Hi & ->).
        exists i. split; auto. apply exceeds_false; auto using quotients_mat. now apply Bool.negb_true_iff.
      + exfalso. apply N. intros G HG. destruct (exceeds G J tol) eqn:EG; auto. assert (T : existsb (fun G => negb (exceeds G J tol)) (map (quotients r f x) steps) = true).
        { apply existsb_exists. exists G. split; auto. now rewrite EG. } congruence.
    - intros (i & Hi & HD) A. assert (E : exceeds (quotients r f x (/ 10 ^ i)) J tol = true) by (apply A, in_map, steps_in; eauto).
      apply (exceeds_false r r) in HD; auto using quotients_mat. congruence. }
  destruct (forallb _ _); cbn [negb rassert].
  - split; auto. split; [discriminate|]. intros H. apply K in H. discriminate.
  - split; auto. split; auto. intros _. now apply K.
Qed.
