(* NewtonProofs.v -- the Newton iterations of _rfromcompressed find r. *)
From Verif Require Export TupleProofs.
From Coq Require Import Psatz.

(* ---------------------------------------------------------------- rounding *)
Lemma round_near (z : Z) (x : R) : IZR z <= x -> x < IZR z + 1/2 -> round_half_even x = z.
Proof. intros H1 H2. unfold round_half_even.
  assert (Int_part x = z) as ->.
  { destruct (base_Int_part x) as [K1 K2]. 
    assert (IZR (Int_part x) < IZR z + 1) by lra. assert (IZR z < IZR (Int_part x) + 1) by lra.
    rewrite <- plus_IZR in *. apply lt_IZR in H, H0. lia. }
  destruct (Rlt_dec (x - IZR z) (1/2)); [reflexivity|lra]. Qed.

Lemma round_near_nat (r : nat) (x : R) : INR r <= x -> x < INR r + 1/2 -> round_half_even x = Z.of_nat r.
Proof. rewrite INR_IZR_INZ. apply round_near. Qed.

(* ---------------------------------------------------------------- floor roots *)
Lemma floor_root_from_spec p n k : (0 < p)%nat -> (n < (S k) ^ p)%nat ->
  let r := floor_root_from p n k in (r ^ p <= n /\ n < (S r) ^ p)%nat.
Proof. intros Hp. induction k as [|k IH]; intros Hk.
  - simpl. split; auto. rewrite Nat.pow_0_l; lia.
  - cbn [floor_root_from]. destruct (Nat.leb_spec (S k ^ p) n) as [K|K]; auto. Qed.
Lemma floor_root_spec p n : (0 < p)%nat ->
  let r := floor_root p n in (r ^ p <= n /\ n < (S r) ^ p)%nat.
Proof. intros Hp. apply floor_root_from_spec; auto.
  assert (S n <= S n ^ p)%nat; [|lia]. replace (S n) with (S n ^ 1)%nat at 1 by apply Nat.pow_1_r.
  apply Nat.pow_le_mono_r; lia. Qed.

(* ---------------------------------------------------------------- quadratic *)
Lemma rfrom2_ok r : rfrom2 (opdim2 r) = r.
Proof. unfold rfrom2. rewrite opdim2_desc. assert (H := desc2_length r).
  replace (1 + 8 * length (desc 2 r))%nat with ((2 * r + 1) * (2 * r + 1))%nat by lia.
  rewrite Nat.sqrt_square.
  replace (2 * r + 1)%nat with (1 + r * 2)%nat by lia. rewrite Nat.div_add by lia. reflexivity. Qed.

(* ---------------------------------------------------------------- cubic *)
Section Cubic.
  Variables (r : nat).
  Let rr := INR r.
  Let b6 := rr * (rr + 1) * (rr + 2).
  Definition step3 (b6 x : R) := x - (x ^ 3 + 3 * x ^ 2 + 2 * x - b6) / (3 * x ^ 2 + 6 * x + 2).

  Lemma step3_eq x : 0 <= x -> step3 b6 x - rr = (x - rr) ^ 2 * (2 * x + rr + 3) / (3 * x ^ 2 + 6 * x + 2).
  Proof. intros Hx. unfold step3, b6. field. apply Rgt_not_eq. nra. Qed.

  Lemma rr_pos : 0 <= rr. Proof. apply pos_INR. Qed.

  Lemma step3_ge x : 0 <= x -> rr <= step3 b6 x.
  Proof. intros Hx. assert (K := step3_eq x Hx). assert (Hr := rr_pos).
    assert (0 <= (x - rr) ^ 2 * (2 * x + rr + 3) / (3 * x ^ 2 + 6 * x + 2)); [|lra].
    apply Rmult_le_pos; [apply Rmult_le_pos; [apply pow2_ge_0|lra]|]. apply Rlt_le, Rinv_0_lt_compat. nra. Qed.

  Lemma step3_third x : rr <= x -> (x - rr) / 3 <= x - step3 b6 x.
  Proof. intros Hx. assert (Hr := rr_pos).
    assert (x - step3 b6 x = (x - rr) * (x^2 + x*rr + rr^2 + 3*x + 3*rr + 2) / (3 * x ^ 2 + 6 * x + 2)) as ->.
    { unfold step3, b6. field. apply Rgt_not_eq. nra. }
    assert (0 < 3 * x ^ 2 + 6 * x + 2) by nra.
    apply (Rmult_le_reg_r (3 * x ^ 2 + 6 * x + 2)); auto.
    replace ((x - rr) * (x ^ 2 + x * rr + rr ^ 2 + 3 * x + 3 * rr + 2) / (3 * x ^ 2 + 6 * x + 2) * (3 * x ^ 2 + 6 * x + 2))
      with ((x - rr) * (x ^ 2 + x * rr + rr ^ 2 + 3 * x + 3 * rr + 2)) by (field; lra).
    assert (0 <= (x - rr) * (x * rr + rr ^ 2 + x + 3 * rr + 4/3)); [|lra].
    apply Rmult_le_pos; nra. Qed.

  Lemma newton3_sound n : forall x z, (rr <= x \/ exists k : nat, x = INR k /\ (k < r)%nat) ->
    newton3 n b6 x = Ok z -> z = Z.of_nat r.
  Proof. induction n as [|n IH]; intros x z Hx; simpl; [discriminate|].
    assert (Hx0 : 0 <= x) by (destruct Hx as [Hx|[k [-> _]]]; [assert (H := rr_pos); lra|apply pos_INR]).
    fold (step3 b6 x).
    replace (x - (x * (x * (x * 1)) + 3 * (x * (x * 1)) + 2 * x - b6) / (3 * (x * (x * 1)) + 6 * x + 2))
      with (step3 b6 x) by (unfold step3; simpl; reflexivity).
    assert (Hge := step3_ge x Hx0).
    destruct (Rlt_dec (Rabs (x - step3 b6 x)) (1 / 4)) as [Hc|Hc].
    - intros E; inversion E; subst z; clear E.
      destruct Hx as [Hx|[k [-> Hk]]].
      + assert (Ht := step3_third x Hx). apply Rabs_def2 in Hc. apply round_near_nat; fold rr; lra.
      + exfalso. apply Rabs_def2 in Hc. assert (INR k + 1 <= rr).
        { unfold rr. rewrite <- S_INR. apply le_INR. lia. } lra.
    - apply IH. auto. Qed.

  Lemma step3_quad x d : 1 <= rr -> rr <= x -> x - rr <= d * rr -> step3 b6 x - rr <= d ^ 2 * rr.
  Proof. intros Hr Hx Hd. rewrite step3_eq by lra.
    assert (HF : 0 < 3 * x ^ 2 + 6 * x + 2) by nra.
    apply (Rmult_le_reg_r (3 * x ^ 2 + 6 * x + 2)); auto.
    unfold Rdiv. rewrite Rmult_assoc, Rinv_l, Rmult_1_r by lra.
    assert (H1 : rr * (2 * x + rr + 3) <= 3 * x ^ 2 + 6 * x + 2) by nra.
    assert (H2 : (x - rr) ^ 2 <= (d * rr) ^ 2) by (apply pow_incr; lra).
    apply Rle_trans with ((d * rr) ^ 2 * (2 * x + rr + 3)).
    - apply Rmult_le_compat_r; [nra|auto].
    - replace ((d * rr) ^ 2 * (2 * x + rr + 3)) with (d ^ 2 * rr * (rr * (2 * x + rr + 3))) by ring.
      apply Rmult_le_compat_l; [nra|auto]. Qed.

  Lemma newton3_conv n : forall x d, 1 <= rr -> rr <= x -> x - rr <= d * rr -> 
    d ^ (2 ^ n) * rr < 1/4 -> exists z, newton3 (S n) b6 x = Ok z.
  Proof. induction n as [|n IH]; intros x d Hr Hx Hd Hs.
    - cbn [newton3]. fold (step3 b6 x).
      assert (Hx0 : 0 <= x) by lra.
      assert (Hge := step3_ge x Hx0). assert (Ht := step3_third x Hx).
      destruct (Rlt_dec (Rabs (x - step3 b6 x)) (1 / 4)) as [Hc|Hc]; [eexists; reflexivity|].
      exfalso. apply Hc. simpl in Hs. apply Rabs_def1; lra.
    - remember (S n) as m. cbn [newton3]. fold (step3 b6 x).
      destruct (Rlt_dec (Rabs (x - step3 b6 x)) (1 / 4)) as [Hc|Hc]; [eexists; reflexivity|].
      subst m. apply (IH _ (d ^ 2)); auto.
      + apply step3_ge. lra.
      + apply step3_quad; auto.
      + rewrite <- pow_mult. simpl in Hs. simpl. rewrite Nat.add_0_r in *. exact Hs. Qed.

  (* first step from the floored cube root *)
  Lemma step3_first (y : nat) : (5 <= r)%nat -> (y ^ 3 * 6 <= r * (r + 1) * (r + 2))%nat ->
    (r * (r + 1) * (r + 2) < 6 * (S y) ^ 3)%nat ->
    step3 b6 (INR y) - rr <= (9/10) * rr.
  Proof. intros Hr H1 H2. rewrite step3_eq by apply pos_INR.
    assert (Hy : (y <= r)%nat).
    { destruct (Nat.le_gt_cases y r) as [K|K]; auto. exfalso.
      assert ((r + 1) ^ 3 <= y ^ 3)%nat as K3 by (apply Nat.pow_le_mono_l; lia).
      replace ((r + 1) ^ 3)%nat with ((r + 1) * (r + 1) * (r + 1))%nat in K3 by (simpl; lia).
      clear H2. nia. }
    apply le_INR in Hy, Hr. apply lt_INR in H2. rewrite !mult_INR, !plus_INR, pow_INR, (S_INR y) in H2.
    change (INR 1) with 1 in *. replace (INR 2) with 2 in H2 by (simpl; ring).
    replace (INR 6) with 6 in H2 by (simpl; ring). replace (INR 5) with 5 in Hr by (simpl; ring).
    fold rr in Hy, Hr, H2. set (x := INR y) in *. assert (0 <= x) by apply pos_INR.
    assert (Hs : (rr + 1) / 2 <= x + 1).
    { destruct (Rle_lt_dec ((rr + 1) / 2) (x + 1)) as [K|K]; auto. exfalso.
      assert (H3 : (x + 1) ^ 3 <= ((rr + 1) / 2) ^ 3) by (apply pow_incr; lra).
      assert (H4 : 0 <= (rr + 1) * ((rr + 1) * (rr + 1) / 4 - 1)) by (apply Rmult_le_pos; nra).
      replace (rr * (rr + 1) * (rr + 2)) with ((rr + 1) ^ 3 - (rr + 1)) in H2 by ring.
      replace (((rr + 1) / 2) ^ 3) with ((rr + 1) ^ 3 / 8) in H3 by field.
      replace ((rr + 1) * ((rr + 1) * (rr + 1) / 4 - 1)) with ((rr + 1) ^ 3 / 4 - (rr + 1)) in H4 by field.
      lra. }
    assert (HF : 0 < 3 * x ^ 2 + 6 * x + 2) by nra.
    apply (Rmult_le_reg_r (3 * x ^ 2 + 6 * x + 2)); auto.
    unfold Rdiv. rewrite Rmult_assoc, Rinv_l, Rmult_1_r by lra.
    set (s := rr + 1) in *. set (w := x + 1) in *.
    replace x with (w - 1) by (unfold w; ring). replace rr with (s - 1) by (unfold s; ring).
    assert (s <= 2 * w) by lra. assert (w <= s) by (unfold w, s; lra). assert (6 <= s) by (unfold s; lra).
    replace ((w - 1 - (s - 1)) ^ 2 * (2 * (w - 1) + (s - 1) + 3)) with ((s - w) ^ 2 * (2 * w + s)) by ring.
    replace (3 * (w - 1) ^ 2 + 6 * (w - 1) + 2) with (3 * w ^ 2 - 1) by ring.
    apply Rle_trans with (s ^ 3 / 2).
    - assert (0 <= (2 * w - s) * (s - w)) by nra.
      assert (E : s ^ 3 / 2 - (s - w) ^ 2 * (2 * w + s) = (2*w - s) * (s * s / 2 + w * (s-w))) by field.
      assert (0 <= (2*w - s) * (s * s / 2 + w * (s-w))); [|lra].
      apply Rmult_le_pos; nra.
    - assert (3 * (s / 2) ^ 2 - 1 <= 3 * w ^ 2 - 1) by nra.
      apply Rle_trans with (9 / 10 * (s - 1) * (3 * (s / 2) ^ 2 - 1)); [nra|].
      apply Rmult_le_compat_l; lra. Qed.
End Cubic.

Lemma newton3_S n b x : newton3 (S n) b x =
  match Rlt_dec (Rabs (x - step3 b x)) (1/4) with
  | left _ => Ok (round_half_even (step3 b x))
  | right _ => newton3 n b (step3 b x)
  end.
Proof. reflexivity. Qed.

Lemma sq_chain a b c n : 0 <= a ^ n <= b -> b * b <= c -> 0 <= a ^ (2 * n) <= c.
Proof. intros [H1 H2] H. replace (2 * n)%nat with (n + n)%nat by lia. rewrite pow_add. split; nra. Qed.

Lemma pow09 : 0 <= (9/10) ^ (2 ^ 8) <= 24 / 10 ^ 13.
Proof. replace (2 ^ 8)%nat with (2 * (2 * (2 * (2 * (2 * (2 * (2 * (2 * 1))))))))%nat by reflexivity.
  apply sq_chain with (b := 14 / 10 ^ 7); [|lra].
  apply sq_chain with (b := 118 / 10 ^ 5); [|lra].
  apply sq_chain with (b := 3434 / 10 ^ 5); [|lra].
  apply sq_chain with (b := 18531 / 10 ^ 5); [|lra].
  apply sq_chain with (b := 43047 / 10 ^ 5); [|lra].
  apply sq_chain with (b := 6561 / 10 ^ 4); [|lra].
  apply sq_chain with (b := 81 / 10 ^ 2); [|lra].
  apply sq_chain with (b := 9 / 10); [|lra]. lra. Qed.

Lemma floor_root_eq p n k : (0 < p)%nat -> (k ^ p <= n)%nat -> (n < (S k) ^ p)%nat -> floor_root p n = k.
Proof. intros Hp H1 H2. destruct (floor_root_spec p n Hp) as [K1 K2].
  set (f := floor_root p n) in *.
  destruct (Nat.lt_trichotomy f k) as [K|[K|K]]; auto; exfalso.
  - assert (S f ^ p <= k ^ p)%nat by (apply Nat.pow_le_mono_l; lia). lia.
  - assert (S k ^ p <= f ^ p)%nat by (apply Nat.pow_le_mono_l; lia). lia. Qed.

Lemma floor_root_le n p r : (0 < p)%nat -> (n < (S r) ^ p)%nat -> (floor_root p n <= r)%nat.
Proof. intros Hp H. destruct (floor_root_spec p n Hp) as [K1 K2].
  destruct (Nat.le_gt_cases (floor_root p n) r) as [K|K]; auto. exfalso.
  assert (S r ^ p <= floor_root p n ^ p)%nat by (apply Nat.pow_le_mono_l; lia). lia. Qed.

Lemma opdim3_6 r : (opdim3 r * 6 = r * (r + 1) * (r + 2))%nat.
Proof. rewrite opdim3_desc. assert (H := desc3_length r). lia. Qed.

Lemma rfrom3_ok r : INR r <= 10 ^ 11 -> rfrom3 (opdim3 r) = Ok (Z.of_nat r).
Proof. intros Hbig. unfold rfrom3.
  assert (E6 : 6 * INR (opdim3 r) = INR r * (INR r + 1) * (INR r + 2)).
  { assert (H := f_equal INR (opdim3_6 r)). rewrite !mult_INR, !plus_INR in H.
    replace (INR 6) with 6 in H by (simpl; ring). replace (INR 2) with 2 in H by (simpl; ring).
    change (INR 1) with 1 in H. lra. }
  rewrite E6. clear E6.
  assert (H6 := opdim3_6 r). destruct (floor_root_spec 3 (opdim3 r)) as [F1 F2]; [lia|].
  set (y := floor_root 3 (opdim3 r)) in *.
  assert (Hex : exists z, newton3 10 (INR r * (INR r + 1) * (INR r + 2)) (INR y) = Ok z).
  { destruct (Nat.eq_dec r 0) as [->|H0].
    { assert (y = 0%nat) as -> by (apply floor_root_eq; simpl; lia). simpl INR.
      rewrite newton3_S. unfold step3. match goal with |- context [Rlt_dec ?a ?b] => destruct (Rlt_dec a b) as [C|C] end; [eauto|].
      exfalso. apply C. match goal with |- context [Rabs ?e] => replace e with 0 by field end. rewrite Rabs_R0. lra. }
    assert (1 <= INR r) by (change 1 with (INR 1); apply le_INR; lia).
    assert (Hf : step3 (INR r * (INR r + 1) * (INR r + 2)) (INR y) - INR r <= 9 / 10 * INR r).
    { destruct (Nat.le_gt_cases 5 r) as [H5|H5].
      - apply step3_first; auto; lia.
      - assert (r = 1 \/ r = 2 \/ r = 3 \/ r = 4)%nat as [->|[->|[->| ->]]] by lia.
        + assert (y = 1%nat) as -> by (apply floor_root_eq; [lia|apply Nat.leb_le; reflexivity|apply Nat.ltb_lt; reflexivity]). unfold step3; simpl INR. lra.
        + assert (y = 1%nat) as -> by (apply floor_root_eq; [lia|apply Nat.leb_le; reflexivity|apply Nat.ltb_lt; reflexivity]). unfold step3; simpl INR. lra.
        + assert (y = 2%nat) as -> by (apply floor_root_eq; [lia|apply Nat.leb_le; reflexivity|apply Nat.ltb_lt; reflexivity]). unfold step3; simpl INR. lra.
        + assert (y = 2%nat) as -> by (apply floor_root_eq; [lia|apply Nat.leb_le; reflexivity|apply Nat.ltb_lt; reflexivity]). unfold step3; simpl INR. lra. }
    rewrite newton3_S.
    match goal with |- context [Rlt_dec ?a ?b] => destruct (Rlt_dec a b) as [C|C] end; [eauto|].
    apply (newton3_conv r 8 _ (9/10)); auto.
    - apply step3_ge, pos_INR.
    - assert (K := pow09). clear - K Hbig. set (p := (9 / 10) ^ 2 ^ 8) in *. clearbody p.
      assert (Hr := pos_INR r). clear - K Hbig Hr.
      assert (p * INR r <= 24 / 10 ^ 13 * 10 ^ 11); [|lra].
      apply Rmult_le_compat; lra. }
  destruct Hex as [z Hz]. rewrite Hz. f_equal. apply (newton3_sound r 10 (INR y)); auto.
  destruct (Nat.lt_ge_cases y r) as [K|K]; [right; eauto|left; apply le_INR; auto]. Qed.

(* ---------------------------------------------------------------- quartic *)
Definition step4 (b24 x : R) := x - (x ^ 4 + 6 * x ^ 3 + 11 * x ^ 2 + 6 * x - b24) / (4 * x ^ 3 + 18 * x ^ 2 + 22 * x + 6).

Lemma newton4_S n b x : newton4 (S n) b x =
  match Rlt_dec (Rabs (x - step4 b x)) (1/4) with
  | left _ => Ok (round_half_even (step4 b x))
  | right _ => newton4 n b (step4 b x)
  end.
Proof. reflexivity. Qed.

Section Quartic.
  Variables (r : nat).
  Let rr := INR r.
  Let b24 := rr * (rr + 1) * (rr + 2) * (rr + 3).

  Lemma F4_pos x : 0 <= x -> 0 < 4 * x ^ 3 + 18 * x ^ 2 + 22 * x + 6.
  Proof. intros. assert (0 <= x ^ 3) by (apply pow_le; auto). nra. Qed.

  Lemma step4_eq x : 0 <= x -> step4 b24 x - rr =
    (x - rr) ^ 2 * (3 * x ^ 2 + 2 * x * rr + rr ^ 2 + 12 * x + 6 * rr + 11) / (4 * x ^ 3 + 18 * x ^ 2 + 22 * x + 6).
  Proof. intros Hx. assert (H := F4_pos x Hx). unfold step4, b24. field. lra. Qed.

  Lemma rr4_pos : 0 <= rr. Proof. apply pos_INR. Qed.

  Lemma step4_ge x : 0 <= x -> rr <= step4 b24 x.
  Proof. intros Hx. assert (K := step4_eq x Hx). assert (Hr := rr4_pos). assert (H := F4_pos x Hx).
    assert (0 <= (x - rr) ^ 2 * (3 * x ^ 2 + 2 * x * rr + rr ^ 2 + 12 * x + 6 * rr + 11) / (4 * x ^ 3 + 18 * x ^ 2 + 22 * x + 6)); [|lra].
    apply Rmult_le_pos; [apply Rmult_le_pos; [apply pow2_ge_0|]|apply Rlt_le, Rinv_0_lt_compat; auto].
    assert (0 <= x * rr) by (apply Rmult_le_pos; auto). nra. Qed.

  Lemma step4_quarter x : rr <= x -> (x - rr) / 4 <= x - step4 b24 x.
  Proof. intros Hx. assert (Hr := rr4_pos). assert (HF := F4_pos x ltac:(lra)).
    assert (x - step4 b24 x = (x - rr) * (x^3 + x^2*rr + x*rr^2 + rr^3 + 6*(x^2 + x*rr + rr^2) + 11*(x+rr) + 6)
       / (4 * x ^ 3 + 18 * x ^ 2 + 22 * x + 6)) as ->.
    { unfold step4, b24. field. lra. }
    apply (Rmult_le_reg_r (4 * x ^ 3 + 18 * x ^ 2 + 22 * x + 6)); auto.
    unfold Rdiv at 2. rewrite Rmult_assoc, Rinv_l, Rmult_1_r by lra.
    assert (0 <= (x - rr) * (x^2*rr + x*rr^2 + rr^3 + (3/2)*x^2 + 6*(x*rr + rr^2) + 11/2*x + 11*rr + 9/2)); [|lra].
    assert (0 <= x ^ 2 * rr) by (apply Rmult_le_pos; [apply pow2_ge_0|auto]).
    assert (0 <= x * rr ^ 2) by (apply Rmult_le_pos; [lra|apply pow2_ge_0]).
    assert (0 <= rr ^ 3) by (apply pow_le; auto).
    assert (0 <= x * rr) by (apply Rmult_le_pos; lra).
    apply Rmult_le_pos; nra. Qed.

  Lemma step4_close x : 1 <= rr -> rr <= x -> x - step4 b24 x < 1/4 -> step4 b24 x < rr + 1/2.
  Proof. intros Hr Hx Hc. assert (Ht := step4_quarter x Hx). assert (HF := F4_pos x ltac:(lra)).
    assert (E := step4_eq x ltac:(lra)). set (h := x - rr) in *.
    assert (H1 : h < 1) by lra. assert (H0 : 0 <= h) by (unfold h; lra).
    assert (B : step4 b24 x - rr <= 7/10 * h ^ 2).
    { rewrite E. apply (Rmult_le_reg_r (4 * x ^ 3 + 18 * x ^ 2 + 22 * x + 6)); auto.
      unfold Rdiv at 1. rewrite Rmult_assoc, Rinv_l, Rmult_1_r by lra.
      replace (7 / 10 * h ^ 2 * (4 * x ^ 3 + 18 * x ^ 2 + 22 * x + 6)) with
         (h ^ 2 * (7 / 10 * (4 * x ^ 3 + 18 * x ^ 2 + 22 * x + 6))) by ring.
      apply Rmult_le_compat_l; [apply pow2_ge_0|].
      assert (x ^ 2 <= x ^ 3) by (apply Rle_pow; [lra|lia]).
      assert (x * rr <= x ^ 2) by nra. assert (rr ^ 2 <= x ^ 2) by nra. assert (x <= x ^ 2) by nra. lra. }
    assert (E2 : x - step4 b24 x = h - (step4 b24 x - rr)) by (unfold h; ring).
    assert (h < 1/2) by nra. nra. Qed.

  Lemma newton4_sound n : forall x z, 1 <= rr -> (rr <= x \/ exists k : nat, x = INR k /\ (k < r)%nat) ->
    newton4 n b24 x = Ok z -> z = Z.of_nat r.
  Proof. induction n as [|n IH]; intros x z Hr Hx; [discriminate|]. rewrite newton4_S.
    assert (Hx0 : 0 <= x) by (destruct Hx as [Hx|[k [-> _]]]; [assert (H := rr4_pos); lra|apply pos_INR]).
    assert (Hge := step4_ge x Hx0).
    destruct (Rlt_dec (Rabs (x - step4 b24 x)) (1 / 4)) as [Hc|Hc].
    - intros E; inversion E; subst z; clear E.
      destruct Hx as [Hx|[k [-> Hk]]].
      + apply Rabs_def2 in Hc. apply round_near_nat; fold rr; [lra|]. apply step4_close; auto; lra.
      + exfalso. apply Rabs_def2 in Hc. assert (INR k + 1 <= rr).
        { unfold rr. rewrite <- S_INR. apply le_INR. lia. } lra.
    - apply IH; auto. Qed.

  (* the iterates decrease at least as fast as Newton's for x^4 = r^4 *)
  Lemma step4_chain x A A' : 1 <= rr -> rr <= x -> x <= A * rr -> 1 <= A ->
    3 * A ^ 4 + 1 <= 4 * A ^ 3 * A' -> step4 b24 x <= A' * rr.
  Proof. intros Hr Hx HA A1 HA'.
    assert (HF := F4_pos x ltac:(lra)).
    assert (P3 : 0 < x ^ 3) by (apply pow_lt; lra). assert (PA : 0 < A ^ 3) by (apply pow_lt; lra).
    assert (E : step4 b24 x <= rr + (x - rr) ^ 2 * (3 * x ^ 2 + 2 * x * rr + rr ^ 2) / (4 * x ^ 3)).
    { assert (E := step4_eq x ltac:(lra)).
      assert ((x - rr) ^ 2 * (3 * x ^ 2 + 2 * x * rr + rr ^ 2 + 12 * x + 6 * rr + 11) / (4 * x ^ 3 + 18 * x ^ 2 + 22 * x + 6)
        <= (x - rr) ^ 2 * (3 * x ^ 2 + 2 * x * rr + rr ^ 2) / (4 * x ^ 3)); [|lra].
      unfold Rdiv. rewrite !Rmult_assoc. apply Rmult_le_compat_l; [apply pow2_ge_0|].
      apply (Rmult_le_reg_r ((4 * x ^ 3 + 18 * x ^ 2 + 22 * x + 6) * (4 * x ^ 3))); [apply Rmult_lt_0_compat; lra|].
      replace ((3 * x ^ 2 + 2 * (x * rr) + rr ^ 2 + 12 * x + 6 * rr + 11) * / (4 * x ^ 3 + 18 * x ^ 2 + 22 * x + 6) *
         ((4 * x ^ 3 + 18 * x ^ 2 + 22 * x + 6) * (4 * x ^ 3))) with
        ((3 * x ^ 2 + 2 * (x * rr) + rr ^ 2 + 12 * x + 6 * rr + 11) * (4 * x ^ 3)) by (field; lra).
      replace ((3 * x ^ 2 + 2 * (x * rr) + rr ^ 2) * / (4 * x ^ 3) * ((4 * x ^ 3 + 18 * x ^ 2 + 22 * x + 6) * (4 * x ^ 3)))
       with ((3 * x ^ 2 + 2 * (x * rr) + rr ^ 2) * (4 * x ^ 3 + 18 * x ^ 2 + 22 * x + 6)) by (field; lra).
      assert (0 <= x ^ 4) by (apply pow_le; lra). assert (0 <= x ^ 3 * rr) by (apply Rmult_le_pos; lra).
      assert (0 <= x ^ 2 * rr ^ 2) by (apply Rmult_le_pos; apply pow2_ge_0).
      assert (0 <= x ^ 2 * rr) by (apply Rmult_le_pos; [apply pow2_ge_0|lra]).
      assert (0 <= x * rr ^ 2) by (apply Rmult_le_pos; [lra|apply pow2_ge_0]).
      assert (0 <= x ^ 2) by apply pow2_ge_0. assert (0 <= rr ^ 2) by apply pow2_ge_0.
      assert (0 <= x * rr) by (apply Rmult_le_pos; lra).
      apply Rminus_le. apply Ropp_le_cancel. rewrite Ropp_0.
      match goal with |- 0 <= ?e => replace e with (6 * x ^ 4 + 12 * (x ^ 3 * rr) + 18 * (x ^ 2 * rr ^ 2) + 22 * x ^ 3
        + 44 * (x ^ 2 * rr) + 22 * (x * rr ^ 2) + 18 * x ^ 2 + 12 * (x * rr) + 6 * rr ^ 2) by ring end.
      lra. }
    apply Rle_trans with (1 := E).
    replace (rr + (x - rr) ^ 2 * (3 * x ^ 2 + 2 * x * rr + rr ^ 2) / (4 * x ^ 3)) with
      ((3 * x ^ 4 + rr ^ 4) / (4 * x ^ 3)) by (field; lra).
    set (X := A * rr) in *. assert (PX : 0 < X ^ 3) by (apply pow_lt; lra).
    apply Rle_trans with ((3 * X ^ 4 + rr ^ 4) / (4 * X ^ 3)).
    - apply (Rmult_le_reg_r (4 * x ^ 3 * X ^ 3)); [apply Rmult_lt_0_compat; lra|].
      replace ((3 * x ^ 4 + rr ^ 4) / (4 * x ^ 3) * (4 * x ^ 3 * X ^ 3)) with ((3 * x ^ 4 + rr ^ 4) * X ^ 3) by (field; lra).
      replace ((3 * X ^ 4 + rr ^ 4) / (4 * X ^ 3) * (4 * x ^ 3 * X ^ 3)) with ((3 * X ^ 4 + rr ^ 4) * x ^ 3) by (field; lra).
      assert (0 <= (X - x) * (3 * (x ^ 3 * X ^ 3) - rr ^ 4 * (X ^ 2 + X * x + x ^ 2))).
      { apply Rmult_le_pos; [lra|].
        assert (rr ^ 3 <= x ^ 3) by (apply pow_incr; lra).
        assert (0 < rr ^ 3) by (apply pow_lt; lra).
        assert (rr ^ 4 * X ^ 2 <= x ^ 3 * X ^ 3).
        { replace (rr ^ 4 * X ^ 2) with (rr ^ 3 * (rr * X ^ 2)) by ring.
          replace (X ^ 3) with (X * X ^ 2) by ring.
          assert (0 <= X ^ 2) by apply pow2_ge_0.
          apply Rmult_le_compat; try lra; [apply Rmult_le_pos; lra|apply Rmult_le_compat_r; lra]. }
        assert (rr ^ 4 * (X * x) <= rr ^ 4 * X ^ 2).
        { apply Rmult_le_compat_l; [apply pow_le; lra|]. nra. }
        assert (rr ^ 4 * x ^ 2 <= rr ^ 4 * X ^ 2).
        { apply Rmult_le_compat_l; [apply pow_le; lra|]. nra. }
        lra. }
      lra.
    - unfold X. apply (Rmult_le_reg_r (4 * (A * rr) ^ 3)); [fold X; lra|].
      unfold Rdiv. rewrite Rmult_assoc, Rinv_l, Rmult_1_r by (fold X; lra).
      replace (3 * (A * rr) ^ 4 + rr ^ 4) with (rr ^ 4 * (3 * A ^ 4 + 1)) by ring.
      replace (A' * rr * (4 * (A * rr) ^ 3)) with (rr ^ 4 * (4 * A ^ 3 * A')) by ring.
      apply Rmult_le_compat_l; auto. apply pow_le; lra. Qed.

  (* first step from the floored fourth root *)
  Lemma step4_first (y : nat) : (12 <= r)%nat -> (y <= r)%nat ->
    (r * (r + 1) * (r + 2) * (r + 3) < 24 * (S y) ^ 4)%nat ->
    step4 b24 (INR y) <= 7/2 * rr.
  Proof. intros Hr Hy H2.
    apply le_INR in Hy, Hr. apply lt_INR in H2. rewrite !mult_INR, !plus_INR, pow_INR, (S_INR y) in H2.
    change (INR 1) with 1 in *. replace (INR 2) with 2 in H2 by (simpl; ring).
    replace (INR 3) with 3 in H2 by (simpl; ring).
    replace (INR 24) with 24 in H2 by (simpl; ring). replace (INR 12) with 12 in Hr by (simpl; ring).
    fold rr in Hy, Hr, H2. set (x := INR y) in *. assert (Hx0 : 0 <= x) by apply pos_INR.
    assert (HF := F4_pos x Hx0).
    assert (Hs : 45/100 * (rr + 3/2) <= x + 1).
    { destruct (Rle_lt_dec (45/100 * (rr + 3/2)) (x + 1)) as [K|K]; auto. exfalso.
      assert (H3 : (x + 1) ^ 4 <= (45/100 * (rr + 3/2)) ^ 4) by (apply pow_incr; lra).
      replace (rr * (rr + 1) * (rr + 2) * (rr + 3)) with ((rr + 3/2) ^ 4 - 5/2 * (rr + 3/2) ^ 2 + 9/16) in H2 by field.
      set (s := rr + 3/2) in *. assert (Hs : 27/2 <= s) by (unfold s; lra).
      replace ((45 / 100 * s) ^ 4) with (4100625/100000000 * s ^ 4) in H3 by field.
      assert (s ^ 4 = s ^ 2 * s ^ 2) by ring. assert (729/4 <= s ^ 2) by nra. assert (0 <= s ^ 2 * (s ^ 2 - 729/4)) by (apply Rmult_le_pos; lra). lra. }
    assert (E := step4_eq x Hx0).
    assert (step4 b24 x - rr <= 5/2 * rr); [|lra]. rewrite E.
    apply (Rmult_le_reg_r (4 * x ^ 3 + 18 * x ^ 2 + 22 * x + 6)); auto.
    unfold Rdiv at 1. rewrite Rmult_assoc, Rinv_l, Rmult_1_r by lra.
    set (s := rr + 3/2) in *. set (w := x + 3/2).
    assert (Hw : 45/100 * s <= w) by (unfold w; lra). assert (Hws : w <= s) by (unfold w, s; lra).
    assert (H12 : 25/2 <= s) by (unfold s; lra).
    replace x with (w - 3/2) by (unfold w; ring). replace rr with (s - 3/2) by (unfold s; ring).
    replace (4 * (w - 3 / 2) ^ 3 + 18 * (w - 3 / 2) ^ 2 + 22 * (w - 3 / 2) + 6) with (4 * w ^ 3 - 5 * w) by field.
    replace ((w - 3 / 2 - (s - 3 / 2)) ^ 2 *
      (3 * (w - 3 / 2) ^ 2 + 2 * (w - 3 / 2) * (s - 3 / 2) + (s - 3 / 2) ^ 2 + 12 * (w - 3 / 2) + 6 * (s - 3 / 2) + 11))
     with (3 * w ^ 4 + s ^ 4 - 4 * s * w ^ 3 - 5/2 * (w - s) ^ 2) by field.
    set (t := w / s). assert (Et : w = t * s) by (unfold t; field; lra).
    assert (Ht : 45/100 <= t).
    { apply (Rmult_le_reg_r s); [lra|]. rewrite <- Et. auto. }
    assert (Ht1 : t <= 1). { apply (Rmult_le_reg_r s); [lra|]. rewrite <- Et. lra. }
    clearbody t w s. clear - Ht Ht1 Et Hws H12. subst w.
    apply Rle_trans with (s ^ 4 * (3 * t ^ 4 + 1 - 4 * t ^ 3)).
    { assert (0 <= (t * s - s) ^ 2) by apply pow2_ge_0. 
      replace (s ^ 4 * (3 * t ^ 4 + 1 - 4 * t ^ 3)) with (3 * (t * s) ^ 4 + s ^ 4 - 4 * s * (t * s) ^ 3) by ring. lra. }
    apply Rle_trans with (5/2 * (88/100 * s) * (4 * (t * s) ^ 3 - 5 * (t * s))).
    2:{ apply Rmult_le_compat_r; [|lra].
        replace (4 * (t * s) ^ 3 - 5 * (t * s)) with ((t * s) * (4 * (t * s) ^ 2 - 5)) by ring.
        assert (5 <= t * s) by nra. apply Rmult_le_pos; nra. }
    assert (Hs2 : 5 * s ^ 2 <= 32/1000 * s ^ 4).
    { replace (s ^ 4) with (s ^ 2 * s ^ 2) by ring. assert (625/4 <= s ^ 2) by nra.
      assert (0 <= s ^ 2 * (s ^ 2 - 625/4)) by (apply Rmult_le_pos; lra). lra. }
    replace (5/2 * (88/100 * s) * (4 * (t * s) ^ 3 - 5 * (t * s))) with
      (88/10 * t ^ 3 * s ^ 4 - 22/10 * t * (5 * s ^ 2)) by field.
    apply Rle_trans with (s ^ 4 * (88/10 * t ^ 3 - 22/10 * t * (32/1000))).
    2:{ assert (t * (5 * s ^ 2) <= t * (32/1000 * s ^ 4)) by (apply Rmult_le_compat_l; lra). lra. }
    apply Rmult_le_compat_l; [apply pow_le; lra|].
    assert (0 <= (t - 45/100) * (t ^ 2 * (128/10 - 3 * t) - 1)).
    { apply Rmult_le_pos; [lra|]. assert ((45/100)^2 <= t ^ 2) by (apply pow_incr; lra).
      assert ((45/100) ^ 2 * (98/10) <= t ^ 2 * (128/10 - 3 * t)) by (apply Rmult_le_compat; lra). lra. }
    assert (0 <= (t - 45/100) * t ^ 2) by (apply Rmult_le_pos; [lra|apply pow2_ge_0]).
    assert (t ^ 2 <= t) by nra. 
    nra. Qed.
End Quartic.

Lemma opdim4_24 r : (opdim4 r * 24 = r * (r + 1) * (r + 2) * (r + 3))%nat.
Proof. rewrite opdim4_desc. assert (H := desc4_length r). lia. Qed.

Lemma newton4_chain r n x A A' : 1 <= INR r -> INR r <= x -> x <= A * INR r -> 1 <= A ->
    3 * A ^ 4 + 1 <= 4 * A ^ 3 * A' ->
  (forall x', INR r <= x' -> x' <= A' * INR r -> exists z, newton4 n (INR r * (INR r + 1) * (INR r + 2) * (INR r + 3)) x' = Ok z) ->
  exists z, newton4 (S n) (INR r * (INR r + 1) * (INR r + 2) * (INR r + 3)) x = Ok z.
Proof. intros Hr Hx HA A1 HA' IH. rewrite newton4_S.
  match goal with |- context [Rlt_dec ?a ?b] => destruct (Rlt_dec a b) as [C|C] end; [eauto|].
  apply IH; [apply step4_ge; lra|]. apply (step4_chain r x A A'); auto. Qed.

Lemma rfrom4_ok r : INR r <= 10 ^ 8 -> rfrom4 (opdim4 r) = Ok (Z.of_nat r).
Proof. intros Hbig. unfold rfrom4.
  assert (E6 : 24 * INR (opdim4 r) = INR r * (INR r + 1) * (INR r + 2) * (INR r + 3)).
  { assert (H := f_equal INR (opdim4_24 r)). rewrite !mult_INR, !plus_INR in H.
    replace (INR 24) with 24 in H by (simpl; ring). replace (INR 2) with 2 in H by (simpl; ring).
    replace (INR 3) with 3 in H by (simpl; ring).
    change (INR 1) with 1 in H. lra. }
  rewrite E6. clear E6.
  assert (H6 := opdim4_24 r). destruct (floor_root_spec 4 (opdim4 r)) as [F1 F2]; [lia|].
  set (y := floor_root 4 (opdim4 r)) in *.
  destruct (Nat.eq_dec r 0) as [->|H0].
  { assert (y = 0%nat) as -> by (apply floor_root_eq; simpl; lia). simpl INR.
      rewrite newton4_S. 
      assert (step4 (0 * (0 + 1) * (0 + 2) * (0 + 3)) 0 = 0) as E0 by (unfold step4; field).
      rewrite E0.
      match goal with |- context [Rlt_dec ?a ?b] => destruct (Rlt_dec a b) as [C|C] end.
      - f_equal. apply round_near_nat; simpl; lra.
      - exfalso. apply C. rewrite Rminus_0_r, Rabs_R0. lra. }
  assert (Hr1 : 1 <= INR r) by (change 1 with (INR 1); apply le_INR; lia).
  assert (Hy : (y <= r)%nat).
  { apply floor_root_le; [lia|]. clear - H6.
    replace (S r ^ 4)%nat with ((r + 1) * (r + 1) * (r + 1) * (r + 1))%nat by (simpl; lia).
    assert (opdim4 r * 24 < (r + 1) * (r + 1) * (r + 1) * (r + 1) * 24)%nat; [|lia].
    rewrite H6. nia. }
  assert (Hex : exists z, newton4 10 (INR r * (INR r + 1) * (INR r + 2) * (INR r + 3)) (INR y) = Ok z).
  { assert (Hf : step4 (INR r * (INR r + 1) * (INR r + 2) * (INR r + 3)) (INR y) <= 7/2 * INR r).
    { destruct (Nat.le_gt_cases 12 r) as [H5|H5].
      - apply step4_first; auto; lia.
      - assert (Hc : (In (r, y) [(1,1);(2,1);(3,1);(4,2);(5,2);(6,3);(7,3);(8,4);(9,4);(10,5);(11,5)])%nat).
        { assert (r = 1 \/ r = 2 \/ r = 3 \/ r = 4 \/ r = 5 \/ r = 6 \/ r = 7 \/ r = 8 \/ r = 9 \/ r = 10 \/ r = 11)%nat as Hc by lia.
          Ltac fr k := match goal with y := floor_root 4 (opdim4 ?r) |- _ => 
             assert (y = k) as -> by (apply floor_root_eq; [lia|apply Nat.leb_le; reflexivity|apply Nat.ltb_lt; reflexivity]) end; simpl; tauto.
          clear - Hc. repeat (destruct Hc as [Hc|Hc]); subst r;
            first [fr 1%nat | fr 2%nat | fr 3%nat | fr 4%nat | fr 5%nat]. }
        clear - Hc. clearbody y. simpl In in Hc.
        repeat (destruct Hc as [Hc|Hc]; [inversion Hc; subst; unfold step4; simpl INR; lra|]). destruct Hc. }
    rewrite newton4_S.
    match goal with |- context [Rlt_dec ?a ?b] => destruct (Rlt_dec a b) as [C|C] end; [eauto|].
    assert (Hg := step4_ge r (INR y) (pos_INR y)). cbv zeta in Hg. clear C.
    set (x1 := step4 _ _) in *. clearbody x1. clear - Hf Hg Hr1 Hbig.
    apply (newton4_chain r _ _ (7/2) (264/100)); auto; try lra. intros x2 G2 B2.
    apply (newton4_chain r _ _ (264/100) (2/1)); auto; try lra. intros x3 G3 B3.
    apply (newton4_chain r _ _ (2/1) (1532/1000)); auto; try lra. intros x4 G4 B4.
    apply (newton4_chain r _ _ (1532/1000) (122/100)); auto; try lra. intros x5 G5 B5.
    apply (newton4_chain r _ _ (122/100) (10529/10000)); auto; try lra. intros x6 G6 B6.
    apply (newton4_chain r _ _ (10529/10000) (1004/1000)); auto; try lra. intros x7 G7 B7.
    apply (newton4_chain r _ _ (1004/1000) (100003/100000)); auto; try lra. intros x8 G8 B8.
    apply (newton4_chain r _ _ (100003/100000) (1 + 2/10^9)); auto; try lra. intros x9 G9 B9.
    rewrite newton4_S.
    match goal with |- context [Rlt_dec ?a ?b] => destruct (Rlt_dec a b) as [C|C] end; [eauto|].
    exfalso. apply C. assert (K := step4_ge r x9 ltac:(lra)). assert (K' := step4_quarter r x9 G9). cbv zeta in K, K'. set (N := step4 _ _) in *. clearbody N. apply Rabs_def1; lra. }
  destruct Hex as [z Hz]. rewrite Hz. f_equal. apply (newton4_sound r 10 (INR y)); auto.
  destruct (Nat.lt_ge_cases y r) as [K|K]; [right; eauto|left; apply le_INR; auto]. Qed.
