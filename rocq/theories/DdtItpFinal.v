(* DdtItpFinal.v -- property C62 in terms of the arguments of the constructor. *)
From Coq Require Import ZArith Reals Lra Lia.
From Verif Require Import AffProofs DdtProofs OpsProofs LinAlg.
From Verif Require Export DdtVerify.
#[local] Open Scope nat_scope.

Section named.
  Variable lib : icname -> rule.
  Lemma named_init t n t2 e : ide_init lib (V t) (ICName (Some n)) t2 = Ok e -> id_time e = t /\ id_class e = interp_of (lib n) 1 /\ out_times e = times_out t t2 /\ (id_new e = None <-> t2 = NNone).
  Proof. intros E. destruct (init_named lib _ _ _ _ E) as (n' & En & Et & HC & H). injection En as <-. injection Et as Et. rewrite Et. split; auto. split; auto. unfold out_times, times_out. destruct t2 as [|[ts|]|]; try contradiction.
    - rewrite H. split; auto. tauto.
    - destruct H as (-> & _). split; auto. split; discriminate. Qed.
  Lemma aligned_shaped k u : aligned k u -> shaped_in k u.
  Proof. intros H A ->. cbn in H. destruct H as (m & _ & H). eauto. Qed.

  Lemma named_estimate t n t2 e r Q u Q1 D1 u1 : ide_init lib (V t) (ICName (Some n)) t2 = Ok e -> 0 < r -> is_mat r (length t) Q -> aligned (length t) u -> ide_estimate e (M Q) u = Ok (Q1, D1, u1) ->
    exists gs, interpolated (lib n) t r Q gs /\ evaluated 1 r gs (times_out t t2) D1 /\
      (t2 = NNone -> Q1 = Q /\ u1 = option_map (fun a => M (two_dim a)) u) /\
      (t2 <> NNone -> evaluated 0 r gs (times_out t t2) Q1 /\ (u = None -> u1 = None) /\
         forall a, u = Some a -> exists hs U1, u1 = Some (M U1) /\ interpolated (lib n) t (length (two_dim a)) (two_dim a) hs /\ evaluated 0 (length (two_dim a)) hs (times_out t t2) U1).
  Proof. intros EI Hr HQ HU E. destruct (named_init _ _ _ _ EI) as (Et & HC & Eo & Hn). rewrite <- Et in *. rewrite <- Eo. destruct (estimate_ok lib e n r Q u Q1 D1 u1 HC Hr HQ (aligned_shaped _ _ HU) E) as (gs & H1 & H2 & H3 & H4). exists gs. split; auto. split; auto. split; [intros HN; apply H3, Hn; auto|]. intros HN. apply H4. intros HN'. apply HN, Hn, HN'. Qed.

  Lemma named_derivative t n t2 e r Q u Q1 D1 u1 : ide_init lib (V t) (ICName (Some n)) t2 = Ok e -> 0 < r -> is_mat r (length t) Q -> aligned (length t) u -> ide_estimate e (M Q) u = Ok (Q1, D1, u1) ->
    meets_data (lib n) -> differentiates (lib n) (times_out t t2) -> is_mat r (length (times_out t t2)) Q1 /\ is_mat r (length (times_out t t2)) D1 /\
    exists f : nat -> R -> R, (forall i j, i < r -> j < length t -> f i (vget t j) = mget Q i j) /\
      forall i j, i < r -> j < length (times_out t t2) -> mget Q1 i j = f i (vget (times_out t t2) j) /\ derivable_pt_lim (f i) (vget (times_out t t2) j) (mget D1 i j).
  Proof. intros EI Hr HQ HU E. destruct (named_init _ _ _ _ EI) as (Et & HC & Eo & Hn). rewrite <- Et in *. rewrite <- Eo. apply (estimate_derivative lib e n r Q u Q1 D1 u1 HC Hr HQ (aligned_shaped _ _ HU) E). Qed.

  Lemma named_defined t n t2 e r Q u : ide_init lib (V t) (ICName (Some n)) t2 = Ok e -> 0 < r -> is_mat r (length t) Q -> aligned (length t) u -> (forall row, In row Q -> exists g, lib n t row = Ok g) ->
    (forall a row, u = Some a -> In row (two_dim a) -> exists g, lib n t row = Ok g) -> exists Q1 D1 u1, ide_estimate e (M Q) u = Ok (Q1, D1, u1) /\ ncols Q1 = length (times_out t t2) /\ ncols D1 = length (times_out t t2).
  Proof. intros EI Hr HQ HU HG HG'. assert (EI' := EI). destruct (named_init _ _ _ _ EI) as (Et & HC & Eo & Hn). assert (HD : exists out, ide_estimate e (M Q) u = Ok out).
    { rewrite <- Et in *. destruct (estimate_defined lib e n r Q HC Hr HQ HG) as (H1 & H2). destruct u as [a|]; auto. apply H2; [apply aligned_shaped; auto| |intros; apply (HG' a); auto]. destruct a as [v|A]; cbn in *; auto. destruct HU as (m & Hm & HA). apply (ncols_is_mat m); auto. }
    destruct HD as ([[Q1 D1] u1] & E). exists Q1, D1, u1. split; auto. destruct (named_estimate t n t2 e r Q u Q1 D1 u1 EI' Hr HQ HU E) as (gs & _ & (HD1 & _) & HN & HS). split; [|apply (ncols_is_mat r _ _ HD1); auto].
    destruct t2 as [|a|] eqn:E2; [destruct (HN eq_refl) as (-> & _); apply (ncols_is_mat r _ _ HQ); auto| |]; destruct (HS ltac:(discriminate)) as ((HQ1 & _) & _); apply (ncols_is_mat r _ _ HQ1); auto. Qed.

  Lemma init_refuses t c t2 : ((exists A, t = M A) \/ c = ICName None -> ide_init lib t c t2 = Err ValueError) /\
    ((exists v, t = V v) -> c <> ICName None -> t2 = NOther \/ (exists A, t2 = NArr (M A)) -> ide_init lib t c t2 = Err TypeError).
  Proof. split.
    - intros [(A & ->)| ->]; [reflexivity|]. destruct t; reflexivity.
    - intros (v & ->) Hc H. unfold ide_init. destruct c as [[n|]|C]; [|contradiction|]; cbn [bind]; destruct H as [->|(A & ->)]; reflexivity. Qed.

  (* a class instead of a name: the rows are not what is interpolated *)
  Lemma class_refuses_data f t t2 e r Q : ide_init lib (V t) (ICClass (interp_of f 0)) t2 = Ok e -> 0 < r -> 0 < length t -> is_mat r (length t) Q -> r <> length t -> ide_estimate e (M Q) None = Err ValueError.
  Proof. intros EI Hr Hk HQ Hne. assert (HC : id_class e = interp_of f 0 /\ id_time e = t). { unfold ide_init in EI. cbn [bind] in EI. destruct t2 as [|[ts|]|]; try discriminate; [injection EI as <-; auto|]. destruct ts; [discriminate|]. destruct t; [discriminate|]. injection EI as <-. auto. }
    destruct HC as (HC & Ht). unfold ide_estimate. rewrite Ht. rewrite (ncols_is_mat r (length t) Q), Nat.eqb_refl by auto. cbn [negb check_inputs bind]. rewrite HC, (axis0_bad f t r Q) by auto. reflexivity. Qed.
End named.
