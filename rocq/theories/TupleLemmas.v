(* TupleLemmas.v -- combinatorics of index tuples. *)
From Verif Require Export LinAlg TupleModel SpecOps.
#[local] Open Scope nat_scope.

(* nested descending loops, generic degree *)
Fixpoint desc (p n : nat) : list (list nat) :=
  match p with
  | 0 => [[]]
  | S p' => flat_map (fun i => map (cons i) (desc p' (S i))) (seq 0 n)
  end.

Lemma flat_map_ext_in {A B} (f g : A -> list B) l :
  (forall x, In x l -> f x = g x) -> flat_map f l = flat_map g l.
Proof. induction l as [|a l IH]; intros H; simpl; auto. rewrite H, IH; simpl; auto.
  intros; apply H; simpl; auto. Qed.

Lemma desc_1 n : desc 1 n = map (fun j => [j]) (seq 0 n).
Proof. simpl. induction (seq 0 n) as [|a l IH]; simpl; congruence. Qed.

Lemma loop2_desc r : loop2 r = desc 2 r.
Proof. unfold loop2. change (desc 2 r) with
  (flat_map (fun i => map (cons i) (desc 1 (S i))) (seq 0 r)).
  apply flat_map_ext_in. intros i _. rewrite desc_1, map_map, Nat.add_1_r. reflexivity. Qed.

Lemma map_flat_map {A B C} (f : B -> C) (g : A -> list B) l :
  map f (flat_map g l) = flat_map (fun x => map f (g x)) l.
Proof. induction l as [|a l IH]; simpl; auto. rewrite map_app, IH; auto. Qed.

Lemma loop3_desc r : loop3 r = desc 3 r.
Proof. unfold loop3. change (desc 3 r) with
  (flat_map (fun i => map (cons i) (desc 2 (S i))) (seq 0 r)).
  apply flat_map_ext_in. intros i _. rewrite <- loop2_desc. unfold loop2.
  rewrite map_flat_map, Nat.add_1_r. apply flat_map_ext_in. intros j _.
  rewrite map_map. reflexivity. Qed.

Lemma loop4_desc r : loop4 r = desc 4 r.
Proof. unfold loop4. change (desc 4 r) with
  (flat_map (fun i => map (cons i) (desc 3 (S i))) (seq 0 r)).
  apply flat_map_ext_in. intros i _. rewrite <- loop3_desc. unfold loop3.
  rewrite map_flat_map, Nat.add_1_r. apply flat_map_ext_in. intros j _.
  rewrite map_flat_map. apply flat_map_ext_in. intros k _.
  rewrite map_map. reflexivity. Qed.

(* ---- tuples ------------------------------------------------------------------ *)
Lemma tuples_length p r : length (tuples p r) = r ^ p.
Proof. induction p as [|p IH]; simpl; auto.
  assert (forall l, length (flat_map (fun i : nat => map (cons i) (tuples p r)) l) = length l * r ^ p) as H.
  { induction l as [|a l IHl]; simpl; auto. rewrite app_length, map_length, IHl, IH. lia. }
  rewrite H, seq_length. reflexivity. Qed.

Lemma in_tuples p r t : In t (tuples p r) <-> length t = p /\ Forall (fun i => i < r) t.
Proof. revert t; induction p as [|p IH]; intros t; simpl.
  - split.
    + intros [<-|[]]; auto.
    + intros [H _]. destruct t; [auto|discriminate].
  - rewrite in_flat_map. split.
    + intros [i [Hi Ht]]. apply in_map_iff in Ht. destruct Ht as [s [<- Hs]].
      apply IH in Hs. apply in_seq in Hi. simpl. split; [lia|].
      constructor; [lia|tauto].
    + intros [Hl HF]. destruct t as [|i s]; [discriminate|]. inversion HF; subst.
      exists i. split; [apply in_seq; lia|]. apply in_map, IH. simpl in Hl. auto. Qed.

Lemma NoDup_flat_map {A B} (f : A -> list B) l : NoDup l ->
  (forall a, In a l -> NoDup (f a)) ->
  (forall a b x, In a l -> In b l -> In x (f a) -> In x (f b) -> a = b) -> NoDup (flat_map f l).
Proof. induction l as [|a l IH]; intros Hl Hf Hd; simpl; [constructor|].
  inversion Hl as [|? ? Ha Hl']; subst.
  assert (forall u v : list B, NoDup u -> NoDup v -> (forall x, In x u -> ~ In x v) -> NoDup (u ++ v)) as NDapp.
  { clear. induction u as [|x u IH]; intros v Hu Hv H; simpl; auto.
    inversion Hu; subst. constructor.
    - rewrite in_app_iff. intros [K|K]; auto. apply (H x); simpl; auto.
    - apply IH; auto. intros y Hy. apply H; simpl; auto. }
  apply NDapp.
  - apply Hf; simpl; auto.
  - apply IH; auto; simpl in *; intros; eauto.
  - intros x Hx Hx'. apply in_flat_map in Hx'. destruct Hx' as [b [Hb Hxb]].
    assert (a = b) by (eapply Hd; simpl; eauto). subst b. auto. Qed.

Lemma NoDup_map_cons {A} (i : A) l : NoDup l -> NoDup (map (cons i) l).
Proof. intros H. apply FinFun.Injective_map_NoDup; auto. intros x y E; congruence. Qed.

Lemma NoDup_tuples p r : NoDup (tuples p r).
Proof. induction p as [|p IH]; simpl.
  - repeat constructor; auto.
  - apply NoDup_flat_map; auto using seq_NoDup, NoDup_map_cons.
    intros a b x _ _ Ha Hb. apply in_map_iff in Ha, Hb.
    destruct Ha as [? [<- _]], Hb as [? [E _]]. congruence. Qed.

Lemma pos_lt r t : Forall (fun i => i < r) t -> pos r t < r ^ length t.
Proof. induction t as [|a t IH]; intros H; simpl; [lia|]. inversion H; subst.
  specialize (IH H3). nia. Qed.

Lemma tuples_nth_pos p r t : length t = p -> Forall (fun i => i < r) t ->
  nth (pos r t) (tuples p r) [] = t.
Proof. revert p; induction t as [|a t IH]; intros p Hl HF; subst p; simpl; auto.
  inversion HF as [|? ? Ha HF']; subst.
  assert (Hgen : forall k n s, k < n -> pos r t < r ^ length t ->
     nth (k * r ^ length t + pos r t) (flat_map (fun i => map (cons i) (tuples (length t) r)) (seq s n)) []
     = (s + k) :: t).
  { clear Ha HF. intros k. induction k as [|k IHk]; intros n s Hk Hp; (destruct n as [|n]; [lia|]); simpl.
    - rewrite app_nth1 by (rewrite map_length, tuples_length; lia).
      rewrite (nth_map_in _ _ _ _ []) by (rewrite tuples_length; lia).
      rewrite IH; auto. f_equal; lia.
    - rewrite app_nth2; rewrite map_length, tuples_length; [|lia].
      replace (r ^ length t + k * r ^ length t + pos r t - r ^ length t)
        with (k * r ^ length t + pos r t) by lia.
      rewrite IHk by (auto; lia). f_equal; lia. }
  rewrite (Hgen a r 0); auto. apply pos_lt; auto. Qed.

Lemma pos_inj p r s t : In s (tuples p r) -> In t (tuples p r) -> pos r s = pos r t -> s = t.
Proof. intros Hs Ht E. apply in_tuples in Hs, Ht. destruct Hs, Ht.
  rewrite <- (tuples_nth_pos p r s), <- (tuples_nth_pos p r t); auto. rewrite E; auto. Qed.

Lemma map_pos_tuples p r : map (pos r) (tuples p r) = seq 0 (r ^ p).
Proof. apply (list_ext 0); [rewrite map_length, tuples_length, seq_length; auto|].
  rewrite map_length, tuples_length. intros i Hi.
  rewrite seq_nth by auto. simpl.
  rewrite (nth_map_in _ _ _ _ []) by (rewrite tuples_length; auto).
  set (t := nth i (tuples p r) []).
  assert (In t (tuples p r)) as Ht by (apply nth_In; rewrite tuples_length; auto).
  apply in_tuples in Ht. destruct Ht as [Hl HF].
  assert (nth (pos r t) (tuples p r) [] = nth i (tuples p r) []) as E by (apply tuples_nth_pos; auto).
  assert (pos r t < r ^ p) by (rewrite <- Hl; apply pos_lt; auto).
  apply (NoDup_nth (tuples p r) []) in E; rewrite ?tuples_length; auto using NoDup_tuples. Qed.

(* ---- descending tuples --------------------------------------------------------- *)
Definition head_lt (n : nat) (t : list nat) : Prop := match t with [] => True | a :: _ => a < n end.

Lemma in_desc p n t : In t (desc p n) <-> length t = p /\ noninc t = true /\ head_lt n t.
Proof. revert n t; induction p as [|p IH]; intros n t.
  - simpl. split.
    + intros [<-|[]]; simpl; auto.
    + intros [H _]. destruct t; [auto|discriminate].
  - change (desc (S p) n) with (flat_map (fun i => map (cons i) (desc p (S i))) (seq 0 n)).
    rewrite in_flat_map. split.
    + intros [i [Hi Ht]]. apply in_map_iff in Ht. destruct Ht as [s [<- Hs]].
      apply IH in Hs. apply in_seq in Hi. destruct Hs as [Hl [Hn Hh]]. simpl length. repeat split; try lia.
      * destruct s as [|b s]; simpl; auto. simpl in Hh. apply andb_true_iff. split; auto.
        apply Nat.leb_le; lia.
      * simpl; lia.
    + intros [Hl [Hn Hh]]. destruct t as [|i s]; [discriminate|]. simpl in Hh, Hl.
      exists i. split; [apply in_seq; lia|]. apply in_map, IH. repeat split; try lia.
      * destruct s as [|b s]; auto. simpl in Hn. apply andb_true_iff in Hn. tauto.
      * destruct s as [|b s]; simpl; auto. simpl in Hn. apply andb_true_iff in Hn.
        destruct Hn as [Hn _]. apply Nat.leb_le in Hn. lia. Qed.

Lemma noninc_all_lt n t : noninc t = true -> head_lt n t -> Forall (fun i => i < n) t.
Proof. induction t as [|a t IH]; intros Hn Hh; constructor; auto.
  destruct t as [|b t]; auto. simpl in Hn. apply andb_true_iff in Hn. destruct Hn as [Hb Hn].
  apply Nat.leb_le in Hb. apply IH; auto. simpl in *. lia. Qed.

Lemma NoDup_desc p n : NoDup (desc p n).
Proof. revert n; induction p as [|p IH]; intros n; simpl.
  - repeat constructor; auto.
  - apply NoDup_flat_map; auto using seq_NoDup, NoDup_map_cons.
    intros a b x _ _ Ha Hb. apply in_map_iff in Ha, Hb.
    destruct Ha as [? [<- _]], Hb as [? [E _]]. congruence. Qed.

(* desc = non-increasing tuples in lexicographic order *)
Lemma filter_flat_map {A B} (P : B -> bool) (f : A -> list B) l :
  filter P (flat_map f l) = flat_map (fun a => filter P (f a)) l.
Proof. induction l as [|a l IH]; simpl; auto.
  rewrite <- IH. clear. induction (f a) as [|b u IHu]; simpl; auto.
  destruct (P b); simpl; rewrite IHu; auto. Qed.

Lemma filter_map_comm {A B} (P : B -> bool) (f : A -> B) l :
  filter P (map f l) = map f (filter (fun a => P (f a)) l).
Proof. induction l as [|a l IH]; simpl; auto. destruct (P (f a)); simpl; rewrite IH; auto. Qed.

Lemma filter_filter {A} (P Q : A -> bool) l :
  filter P (filter Q l) = filter (fun a => Q a && P a) l.
Proof. induction l as [|a l IH]; simpl; auto.
  destruct (Q a); simpl; rewrite <- ?IH; auto. Qed.

Definition head_leb (i : nat) (t : list nat) : bool := match t with [] => true | a :: _ => a <=? i end.

Lemma filter_true {A} (P : A -> bool) l : (forall x, In x l -> P x = true) -> filter P l = l.
Proof. induction l as [|a l IH]; intros H; simpl; auto. rewrite H by (simpl; auto).
  rewrite IH; auto. intros; apply H; simpl; auto. Qed.
Lemma filter_false {A} (P : A -> bool) l : (forall x, In x l -> P x = false) -> filter P l = [].
Proof. induction l as [|a l IH]; intros H; simpl; auto. rewrite H by (simpl; auto).
  apply IH; auto. intros; apply H; simpl; auto. Qed.

Lemma desc_head_filter p n i : i < n -> filter (head_leb i) (desc p n) = desc p (S i).
Proof. intros Hi. destruct p as [|p]; [reflexivity|].
  change (desc (S p) n) with (flat_map (fun i => map (cons i) (desc p (S i))) (seq 0 n)).
  change (desc (S p) (S i)) with (flat_map (fun i => map (cons i) (desc p (S i))) (seq 0 (S i))).
  replace n with (S i + (n - S i)) by lia. rewrite seq_app, flat_map_app, filter_app.
  rewrite (filter_true _ (flat_map _ (seq 0 (S i)))).
  - rewrite (filter_false _ (flat_map _ (seq (0 + S i) (n - S i)))); [apply app_nil_r|].
    intros x Hx. apply in_flat_map in Hx. destruct Hx as [k [Hk Hx]]. apply in_seq in Hk.
    apply in_map_iff in Hx. destruct Hx as [s [<- _]]. simpl. apply Nat.leb_gt. lia.
  - intros x Hx. apply in_flat_map in Hx. destruct Hx as [k [Hk Hx]]. apply in_seq in Hk.
    apply in_map_iff in Hx. destruct Hx as [s [<- _]]. simpl. apply Nat.leb_le. lia. Qed.

Lemma monomials_desc p r : monomials p r = desc p r.
Proof. unfold monomials. induction p as [|p IH]; [reflexivity|].
  change (tuples (S p) r) with (flat_map (fun i => map (cons i) (tuples p r)) (seq 0 r)).
  change (desc (S p) r) with (flat_map (fun i => map (cons i) (desc p (S i))) (seq 0 r)).
  rewrite filter_flat_map. apply flat_map_ext_in. intros i Hi. apply in_seq in Hi.
  rewrite filter_map_comm. f_equal.
  rewrite <- (desc_head_filter p r i) by lia. rewrite <- IH, filter_filter.
  apply filter_ext. intros [|b s]; simpl; auto. apply andb_comm. Qed.

(* prefix property: heads below S i form a prefix *)
Lemma desc_prefix p n i : i < n -> firstn (length (desc p (S i))) (desc p n) = desc p (S i).
Proof. intros Hi. destruct p as [|p]; [reflexivity|].
  change (desc (S p) n) with (flat_map (fun i => map (cons i) (desc p (S i))) (seq 0 n)).
  replace n with (S i + (n - S i)) by lia. rewrite seq_app, flat_map_app.
  change (desc (S p) (S i)) with (flat_map (fun i => map (cons i) (desc p (S i))) (seq 0 (S i))).
  rewrite firstn_app, firstn_all, Nat.sub_diag. simpl firstn. apply app_nil_r. Qed.

(* lengths *)
Lemma desc_length_S p n : length (desc (S p) (S n)) = length (desc (S p) n) + length (desc p (S n)).
Proof. change (desc (S p) (S n)) with (flat_map (fun i => map (cons i) (desc p (S i))) (seq 0 (S n))).
  rewrite seq_S, flat_map_app, app_length. simpl flat_map. rewrite app_nil_r, map_length. reflexivity. Qed.

Lemma desc_length_0 p : length (desc (S p) 0) = 0.
Proof. reflexivity. Qed.

Lemma desc1_length n : length (desc 1 n) = n.
Proof. rewrite desc_1, map_length, seq_length; auto. Qed.

Lemma desc2_length n : 2 * length (desc 2 n) = n * (n + 1).
Proof. induction n as [|n IH]; [reflexivity|]. rewrite desc_length_S, desc1_length. nia. Qed.
Lemma desc3_length n : 6 * length (desc 3 n) = n * (n + 1) * (n + 2).
Proof. induction n as [|n IH]; [reflexivity|]. rewrite desc_length_S.
  assert (H := desc2_length (S n)). nia. Qed.
Lemma desc4_length n : 24 * length (desc 4 n) = n * (n + 1) * (n + 2) * (n + 3).
Proof. induction n as [|n IH]; [reflexivity|]. rewrite desc_length_S.
  assert (H := desc3_length (S n)). nia. Qed.

Lemma opdim2_desc r : opdim2 r = length (desc 2 r).
Proof. unfold opdim2. rewrite <- desc2_length, Nat.mul_comm, Nat.div_mul; auto. Qed.
Lemma opdim3_desc r : opdim3 r = length (desc 3 r).
Proof. unfold opdim3. rewrite <- desc3_length, Nat.mul_comm, Nat.div_mul; auto. Qed.
Lemma opdim4_desc r : opdim4 r = length (desc 4 r).
Proof. unfold opdim4. rewrite <- desc4_length, Nat.mul_comm, Nat.div_mul; auto. Qed.

Lemma binom2_desc i : binom2 (i + 2) = length (desc 2 (S i)).
Proof. unfold binom2. rewrite <- (Nat.div_mul (length (desc 2 (S i))) 2) by auto.
  f_equal. assert (H := desc2_length (S i)). replace (i + 2 - 1) with (S i) by lia. lia. Qed.
Lemma binom3_desc i : binom3 (i + 3) = length (desc 3 (S i)).
Proof. unfold binom3. rewrite <- (Nat.div_mul (length (desc 3 (S i))) 6) by auto.
  f_equal. assert (H := desc3_length (S i)).
  replace (i + 3 - 1) with (i + 2) by lia. replace (i + 3 - 2) with (S i) by lia. nia. Qed.

(* ---- distinct permutations -------------------------------------------------------- *)
Lemma in_insert_all x l s : In s (insert_all x l) ->  Permutation s (x :: l).
Proof. revert s; induction l as [|y l IH]; simpl; intros s.
  - intros [<-|[]]; auto.
  - intros [<-|H]; auto. apply in_map_iff in H. destruct H as [u [<- Hu]].
    apply IH in Hu. rewrite Hu. apply perm_swap. Qed.

Lemma insert_all_split x a b : In (a ++ x :: b) (insert_all x (a ++ b)).
Proof. induction a as [|y a IH]; simpl.
  - destruct b; simpl; auto.
  - right. apply in_map, IH. Qed.

Lemma in_perms l s : In s (perms l) <-> Permutation s l.
Proof. revert s; induction l as [|x l IH]; intros s; simpl.
  - split.
    + intros [<-|[]]; auto.
    + intros H. apply Permutation_sym, Permutation_nil in H. auto.
  - rewrite in_flat_map. split.
    + intros [u [Hu Hs]]. apply IH in Hu. apply in_insert_all in Hs. rewrite Hs, Hu; auto.
    + intros H. assert (In x s) as Hx by (apply (Permutation_in x (Permutation_sym H)); simpl; auto).
      apply in_split in Hx. destruct Hx as [a [b ->]].
      exists (a ++ b). split; [|apply insert_all_split].
      apply IH. apply (Permutation_cons_inv (a := x)).
      rewrite <- H. apply Permutation_middle. Qed.

Lemma in_perm_set t s : In s (perm_set t) <-> Permutation s t.
Proof. unfold perm_set. rewrite nodup_In. apply in_perms. Qed.
Lemma NoDup_perm_set t : NoDup (perm_set t).
Proof. apply NoDup_nodup. Qed.
Lemma perm_set_length_pos t : (0 < length (perm_set t))%nat.
Proof. assert (In t (perm_set t)) by (apply in_perm_set; auto).
  destruct (perm_set t); simpl in *; [tauto|lia]. Qed.

(* sorting *)
Fixpoint ins (x : nat) (l : list nat) : list nat :=
  match l with [] => [x] | y :: l' => if y <=? x then x :: l else y :: ins x l' end.
Fixpoint sortd (l : list nat) : list nat := match l with [] => [] | x :: l' => ins x (sortd l') end.

Lemma ins_perm x l : Permutation (ins x l) (x :: l).
Proof. induction l as [|y l IH]; simpl; auto. destruct (y <=? x); auto.
  rewrite IH. apply perm_swap. Qed.
Lemma sortd_perm l : Permutation (sortd l) l.
Proof. induction l as [|x l IH]; simpl; auto. rewrite ins_perm, IH; auto. Qed.

Lemma noninc_cons a t : noninc (a :: t) = true <-> (noninc t = true /\ Forall (fun b => b <= a) t).
Proof. revert a; induction t as [|b t IH]; intros a.
  - simpl; split; auto.
  - change (noninc (a :: b :: t)) with ((b <=? a) && noninc (b :: t)).
    rewrite andb_true_iff, Nat.leb_le. split.
    + intros [H1 H2]. split; auto. constructor; auto. apply IH in H2. destruct H2 as [_ H2].
      eapply Forall_impl; [|exact H2]. simpl; intros; lia.
    + intros [H1 H2]. inversion H2; auto. Qed.

Lemma ins_noninc x l : noninc l = true -> noninc (ins x l) = true.
Proof. induction l as [|y l IH]; intros H; simpl; auto.
  destruct (Nat.leb_spec y x) as [Hy|Hy].
  - apply noninc_cons. split; auto. constructor; auto. apply noninc_cons in H. destruct H as [_ H].
    eapply Forall_impl; [|exact H]. simpl; intros; lia.
  - apply noninc_cons in H. destruct H as [H1 H2]. apply noninc_cons. split; auto.
    eapply Permutation_Forall; [apply Permutation_sym, ins_perm|]. constructor; auto. lia. Qed.
Lemma sortd_noninc l : noninc (sortd l) = true.
Proof. induction l as [|x l IH]; simpl; auto. apply ins_noninc; auto. Qed.

Lemma noninc_perm_unique s t : noninc s = true -> noninc t = true -> Permutation s t -> s = t.
Proof. revert t; induction s as [|a s IH]; intros t Hs Ht HP.
  - apply Permutation_nil in HP. auto.
  - destruct t as [|b t]; [apply Permutation_sym, Permutation_nil in HP; discriminate|].
    apply noninc_cons in Hs, Ht. destruct Hs as [Hs1 Hs2], Ht as [Ht1 Ht2].
    rewrite Forall_forall in Hs2, Ht2.
    assert (a = b) as ->.
    { assert (In a (b :: t)) as Ha by (apply (Permutation_in _ HP); simpl; auto).
      assert (In b (a :: s)) as Hb by (apply (Permutation_in _ (Permutation_sym HP)); simpl; auto).
      simpl in Ha, Hb. destruct Ha as [Ha|Ha]; auto. destruct Hb as [Hb|Hb]; auto.
      apply Ht2 in Ha. apply Hs2 in Hb. lia. }
    f_equal. apply IH; auto. apply Permutation_cons_inv in HP. auto. Qed.

(* the key fact: all tuples are the permutations of the non-increasing ones, each once *)
Lemma tuples_flat_perms p r : Permutation (tuples p r) (flat_map perm_set (desc p r)).
Proof. apply NoDup_Permutation.
  - apply NoDup_tuples.
  - apply NoDup_flat_map; auto using NoDup_desc, NoDup_perm_set.
    intros a b x Ha Hb Hxa Hxb. apply in_perm_set in Hxa, Hxb. apply in_desc in Ha, Hb.
    apply noninc_perm_unique; try tauto. rewrite <- Hxa; auto.
  - intros t. rewrite in_flat_map, in_tuples. split.
    + intros [Hl HF]. exists (sortd t). split.
      * apply in_desc. repeat split.
        -- rewrite (Permutation_length (sortd_perm t)); auto.
        -- apply sortd_noninc.
        -- assert (Forall (fun i => i < r) (sortd t)) as H
             by (eapply Permutation_Forall; [apply Permutation_sym, sortd_perm|auto]).
           destruct (sortd t); simpl; auto. inversion H; auto.
      * apply in_perm_set, Permutation_sym, sortd_perm.
    + intros [s [Hs Ht]]. apply in_desc in Hs. apply in_perm_set in Ht. destruct Hs as [Hl [Hn Hh]].
      split; [rewrite (Permutation_length Ht); auto|].
      eapply Permutation_Forall; [apply Permutation_sym; exact Ht|]. apply noninc_all_lt; auto. Qed.

Lemma mono_perm q s t : Permutation s t -> mono q s = mono q t.
Proof. intros H. apply lprod_Permutation, Permutation_map, H. Qed.

Lemma prod_at_mono q t : prod_at q t = mono q t.
Proof. reflexivity. Qed.

(* sums over all tuples, grouped *)
Lemma lsum_tuples_grouped p r (f : list nat -> R) :
  lsum (map f (tuples p r)) = lsum (map (fun t => lsum (map f (perm_set t))) (desc p r)).
Proof. rewrite (lsum_Permutation _ _ (Permutation_map f (tuples_flat_perms p r))).
  apply lsum_flat_map. Qed.
