(* HdfProofs.v -- lemmas about writing trees and files. *)
From Coq Require Import String ZArith Lia DecimalString DecimalNat DecimalFacts.
From Verif Require Export SpecSave.
#[local] Open Scope string_scope.
#[local] Open Scope nat_scope.
#[local] Open Scope list_scope.

Lemma wexec_group nm evs k g : wexec (EGroup nm evs) k g =
  match assoc nm (snd g) with
  | Some _ => (g, Raised ValueError, k)
  | None => match k with
            | Some 0 => (g, Killed, k)
            | _ => let '(sub, s, k2) := wexecs evs (option_map pred k) ([], []) in
                   ((fst g, snd g ++ [(nm, Grp (fst sub) (snd sub))]), s, k2)
            end
  end.
Proof. reflexivity. Qed.

Section Ind.
  Variable P : wev -> Prop.
  Hypothesis H1 : forall nm d, P (EData nm d).
  Hypothesis H2 : forall nm k v, P (EAttr nm k v).
  Hypothesis H3 : forall k v, P (ESelf k v).
  Hypothesis H4 : forall nm l, Forall P l -> P (EGroup nm l).
  Hypothesis H5 : forall e, P (ERaise e).
  Fixpoint wev_ind' (e : wev) : P e :=
    match e with
    | EData nm d => H1 nm d | EAttr nm k v => H2 nm k v | ESelf k v => H3 k v | ERaise e => H5 e
    | EGroup nm l => H4 nm l ((fix go (l : list wev) : Forall P l := match l with [] => Forall_nil _ | x :: t => Forall_cons _ (wev_ind' x) (go t) end) l)
    end.
End Ind.

Lemma tick_done k o n g k' : tick k o n = (g, Done, k') -> g = n.
Proof. destruct k as [[|k]|]; simpl; intros H; inversion H; auto. Qed.
Lemma tick_none k o n : (exists k', tick k o n = (n, Done, k')) \/ tick k o n = (o, Killed, Some 0).
Proof. destruct k as [[|k]|]; simpl; eauto. Qed.

(* a run that is not killed in time does what the run without a killer does *)
Lemma done_none ev : forall k g g' k', wexec ev k g = (g', Done, k') -> wexec ev None g = (g', Done, None).
Proof.
  induction ev as [nm d|nm key v|key v|nm l IH|e] using wev_ind'; intros k g g' k' H.
  - destruct d as [d|]; simpl in *; [|discriminate]. destruct (assoc nm (snd g)); [discriminate|].
    apply tick_done in H; subst; auto.
  - simpl in *. destruct (nset nm key v (snd g)); [|discriminate]. apply tick_done in H; subst; auto.
  - simpl in *. apply tick_done in H; subst; auto.
  - rewrite wexec_group in *. destruct (assoc nm (snd g)); [discriminate|].
    assert (L : forall k g g' k', wexecs l k g = (g', Done, k') -> wexecs l None g = (g', Done, None)).
    { clear H. induction IH as [|e t He Ht IHt]; intros k0 g0 g0' k0' H; simpl in *.
      - inversion H; auto.
      - destruct (wexec e k0 g0) as [[g1 s1] k1] eqn:E. destruct s1; try discriminate.
        apply He in E. rewrite E. eapply IHt; eauto. }
    destruct k as [[|k]|]; try discriminate; simpl option_map in *;
      destruct (wexecs l _ ([], [])) as [[sub s] k2] eqn:E; inversion H; subst; pose proof (L _ _ _ _ E) as E2.
    + rewrite E2. auto.
    + rewrite E in E2. inversion E2; subst. auto.
  - discriminate.
Qed.
Lemma dones_none l : forall k g g' k', wexecs l k g = (g', Done, k') -> wexecs l None g = (g', Done, None).
Proof.
  induction l as [|e t IH]; intros k g g' k' H; simpl in *.
  - inversion H; auto.
  - destruct (wexec e k g) as [[g1 s1] k1] eqn:E. destruct s1; try discriminate.
    apply done_none in E. rewrite E. eapply IH; eauto.
Qed.

(* ---- save_file, load_file -------------------------------------------------------------------------------------------- *)
Lemma fset_same p x f : fset p x f p = Some x. Proof. unfold fset. now rewrite String.eqb_refl. Qed.
Lemma fset_other p q x f : p <> q -> fset p x f q = f q.
Proof. unfold fset. intros H. apply String.eqb_neq in H. now rewrite H. Qed.

Lemma save_done w f path ow evs f' : save_file w f path ow evs = (f', Done) ->
  exists a l, wexecs evs None ([], []) = ((a, l), Done, None) /\ f' = fset path (File (Some (Grp a l))) f.
Proof.
  unfold save_file. intros H.
  assert (K : (if w_open w then
        let '(g, s, _) := wexecs evs (option_map fst (w_kill w)) ([], []) in
        (fset path (File (match s, w_kill w with Killed, Some (_, false) => None | _, _ => Some (Grp (fst g) (snd g)) end)) f, s)
      else (f, Raised OtherError)) = (f', Done)).
  { destruct (f path) as [[c|]|]; destruct ow; try discriminate; auto. }
  clear H. destruct (w_open w); [|discriminate].
  destruct (wexecs evs _ ([], [])) as [[[a l] s] k] eqn:E. inversion K; subst. apply dones_none in E. eauto.
Qed.
Lemma save_calm f path ow evs a l : f path = None -> wexecs evs None ([], []) = ((a, l), Done, None) ->
  save_file calm f path ow evs = (fset path (File (Some (Grp a l))) f, Done).
Proof. unfold save_file. intros H E. rewrite H. simpl. rewrite E. reflexivity. Qed.

Lemma loads_as_from {A} I x a l (load : node -> res A) y :
  wexecs (events_of I x) None ([], []) = ((a, l), Done, None) -> load (Grp a l) = Ok y -> loads_as I x load y.
Proof.
  intros E L w f path ow f' H. unfold save in H. apply save_done in H. destruct H as [a' [l' [E' ->]]].
  rewrite E in E'. inversion E'; subst. unfold load_file. rewrite fset_same, L. reflexivity.
Qed.
Lemma saves_from I x a l : wexecs (events_of I x) None ([], []) = ((a, l), Done, None) -> saves I x.
Proof. intros E f path H. eexists. apply save_calm; eauto. Qed.
Lemma comes_back_from {A} I x a l (load : node -> res A) y :
  wexecs (events_of I x) None ([], []) = ((a, l), Done, None) -> load (Grp a l) = Ok y -> comes_back I x load y.
Proof. intros E L. split; [eapply saves_from|eapply loads_as_from]; eauto. Qed.
Lemma not_loaded_from {A} I x a l (load : node -> res A) e :
  wexecs (events_of I x) None ([], []) = ((a, l), Done, None) -> load (Grp a l) = Err e -> cannot_be_loaded I x load.
Proof.
  intros E L. split; [eapply saves_from; eauto|]. intros w f path ow f' H. unfold save in H. apply save_done in H.
  destruct H as [a' [l' [E' ->]]]. rewrite E in E'. inversion E'; subst. unfold load_file. rewrite fset_same, L. reflexivity.
Qed.
Lemma not_saved_from I x g s k : wexecs (events_of I x) None ([], []) = (g, s, k) -> s <> Done -> cannot_be_saved I x.
Proof. intros E N w f path ow f' H. apply save_done in H. destruct H as [a [l [E' _]]]. rewrite E in E'. inversion E'; subst; auto. Qed.
Lemma loads_as_intro {A} I x (load : node -> res A) y :
  (forall a l, wexecs (events_of I x) None ([], []) = ((a, l), Done, None) -> load (Grp a l) = Ok y) -> loads_as I x load y.
Proof.
  intros K w f path ow f' H. unfold save in H. apply save_done in H. destruct H as [a [l [E ->]]].
  unfold load_file. rewrite fset_same, (K _ _ E). reflexivity.
Qed.

(* ---- names ------------------------------------------------------------------------------------------------------------ *)
Lemma dec_inj i j : dec i = dec j -> i = j.
Proof.
  unfold dec. intros H. assert (E : Nat.to_uint i = Nat.to_uint j).
  { generalize (NilEmpty.usu (Nat.to_uint i)), (NilEmpty.usu (Nat.to_uint j)). rewrite H. congruence. }
  rewrite <- (Unsigned.of_to i), <- (Unsigned.of_to j), E. reflexivity.
Qed.
Lemma append_inj p a b : String.append p a = String.append p b -> a = b.
Proof. induction p; simpl; intros H; [auto|]. inversion H; auto. Qed.
Definition undec (s : str) : option nat := option_map Nat.of_uint (NilEmpty.uint_of_string s).
Lemma undec_dec i : undec (dec i) = Some i.
Proof. unfold undec, dec. rewrite NilEmpty.usu. simpl. now rewrite Unsigned.of_to. Qed.
Lemma undec_dec2 i : undec (dec2 i) = Some i.
Proof.
  unfold dec2. destruct (String.length (dec i) <? 2); [|apply undec_dec].
  generalize (undec_dec i). unfold undec. change (String.append "0" (dec i)) with (String (Ascii.Ascii false false false false true true false false) (dec i)).
  simpl. destruct (NilEmpty.uint_of_string (dec i)); simpl; [auto|discriminate].
Qed.
Lemma dec2_inj i j : dec2 i = dec2 j -> i = j.
Proof. intros H. generalize (undec_dec2 i), (undec_dec2 j). rewrite H. congruence. Qed.
Definition injective (name : nat -> str) : Prop := forall i j, name i = name j -> i = j.
Lemma name_dec p : injective (fun i => String.append p (dec i)).
Proof. intros i j H. apply append_inj in H. now apply dec_inj. Qed.
Lemma name_dec2 p : injective (fun i => String.append p (dec2 i)).
Proof. intros i j H. apply append_inj in H. now apply dec2_inj. Qed.

(* ---- assoc ------------------------------------------------------------------------------------------------------------- *)
Lemma assoc_app {A} k (l l' : list (str * A)) : assoc k (l ++ l') = match assoc k l with Some a => Some a | None => assoc k l' end.
Proof. induction l as [|[k' a] t IH]; simpl; [auto|]. destruct (String.eqb k k'); auto. Qed.
(* numbered members *)
Fixpoint number {A} (name : nat -> str) (i : nat) (l : list A) : list (str * A) :=
  match l with [] => [] | x :: t => (name i, x) :: number name (S i) t end.
Lemma number_length {A} name (l : list A) : forall i, length (number name i l) = length l.
Proof. induction l; simpl; auto. Qed.
Lemma number_fresh {A} name (l : list A) : injective name -> forall i j, j < i -> assoc (name j) (number name i l) = None.
Proof.
  intros Hn. induction l as [|x t IH]; intros i j Hj; simpl; [auto|].
  destruct (String.eqb (name j) (name i)) eqn:E; [apply String.eqb_eq, Hn in E; lia|]. apply IH. lia.
Qed.
Lemma number_get {A} name (l : list A) : injective name -> forall i k, assoc (name (i + k)) (number name i l) = nth_error l k.
Proof.
  intros Hn. induction l as [|x t IH]; intros i k; simpl; [now destruct k|].
  destruct k as [|k]; simpl.
  - now rewrite Nat.add_0_r, String.eqb_refl.
  - destruct (String.eqb (name (i + S k)) (name i)) eqn:E; [apply String.eqb_eq, Hn in E; lia|].
    rewrite <- (IH (S i) k). f_equal. f_equal. lia.
Qed.
Lemma number_other {A} name (l : list A) k : (forall i, name i <> k) -> forall i, assoc k (number name i l) = None.
Proof.
  intros Hk. induction l as [|x t IH]; intros i; simpl; [auto|].
  destruct (String.eqb k (name i)) eqn:E; [apply String.eqb_eq in E; exfalso; eapply Hk; eauto|apply IH].
Qed.

(* ---- groups ---------------------------------------------------------------------------------------------------------------- *)
(* the tree a list of calls writes *)
Definition writes (evs : list wev) (g : node) : Prop := exists a l, g = Grp a l /\ wexecs evs None ([], []) = ((a, l), Done, None).
Lemma wexecs_app l l' k g : wexecs (l ++ l') k g = match wexecs l k g with (g', Done, k') => wexecs l' k' g' | x => x end.
Proof.
  revert k g. induction l as [|e t IH]; intros k g; [auto|]. simpl. destruct (wexec e k g) as [[g1 s1] k1]. destruct s1; auto.
Qed.
Lemma egroups_writes {A} name (save : A -> list wev) l : injective name -> forall gs i a m,
  Forall2 (fun x g => writes (save x) g) l gs -> (forall j, i <= j -> assoc (name j) m = None) ->
  wexecs (egroups name save i l) None (a, m) = ((a, m ++ number name i gs), Done, None).
Proof.
  intros Hn. induction l as [|x t IH]; intros gs i a m HF Hm; inversion HF as [|? g ? gs' Hg Ht]; subst; cbn [egroups number].
  - simpl. now rewrite app_nil_r.
  - cbn [wexecs]. rewrite wexec_group. cbn [snd fst option_map]. rewrite Hm by lia.
    destruct Hg as [a' [l' [-> E]]]. rewrite E. cbn [fst snd].
    fold (@egroups A name save). rewrite (IH gs'); [|auto|].
    + now rewrite <- app_assoc.
    + intros j Hj. rewrite assoc_app, Hm by lia. simpl.
      destruct (String.eqb (name j) (name i)) eqn:Q; [apply String.eqb_eq, Hn in Q; lia|auto].
Qed.
Lemma lgroups_reads {A} name (g : node) (lds : list (node -> res A)) : forall gs xs i,
  (forall k x, nth_error gs k = Some x -> assoc (name (i + k)) (kids g) = Some x) ->
  length gs = length lds ->
  (forall k ld x y, nth_error lds k = Some ld -> nth_error gs k = Some x -> nth_error xs k = Some y -> ld x = Ok y) ->
  length xs = length lds ->
  lgroups name g i lds = Ok xs.
Proof.
  induction lds as [|ld t IH]; intros gs xs i Hg L1 H L2; destruct gs as [|x gs], xs as [|y xs]; simpl in L1, L2; try discriminate; [auto|].
  cbn [lgroups]. unfold item. rewrite <- (Nat.add_0_r i) at 1. rewrite (Hg 0 x eq_refl). cbn [bind].
  rewrite (H 0 ld x y eq_refl eq_refl eq_refl). cbn [bind].
  fold (@lgroups A name g). rewrite (IH gs xs (S i)); [auto| |lia| |lia].
  - intros k z Hz. rewrite <- (Hg (S k) z Hz). f_equal. f_equal. lia.
  - intros k ld' x' y' A1 A2 A3. exact (H (S k) ld' x' y' A1 A2 A3).
Qed.
Lemma comes_back_w {A} I x g (load : node -> res A) y : writes (events_of I x) g -> load g = Ok y -> comes_back I x load y.
Proof. intros [a [l [-> E]]] L. eapply comes_back_from; eauto. Qed.
Lemma not_loaded_w {A} I x g (load : node -> res A) e : writes (events_of I x) g -> load g = Err e -> cannot_be_loaded I x load.
Proof. intros [a [l [-> E]]] L. eapply not_loaded_from; eauto. Qed.
Lemma loads_as_w {A} I x (load : node -> res A) y : (forall g, writes (events_of I x) g -> load g = Ok y) -> loads_as I x load y.
Proof. intros K. apply loads_as_intro. intros a l E. apply K. exists a, l. auto. Qed.
Lemma egroups_all {A} name (save : A -> list wev) l (P : A -> node -> Prop) a m :
  injective name -> (forall x, In x l -> exists g, writes (save x) g /\ P x g) -> (forall j, assoc (name j) m = None) ->
  exists gs, Forall2 P l gs /\ wexecs (egroups name save 0 l) None (a, m) = ((a, m ++ number name 0 gs), Done, None).
Proof.
  intros Hn H Hm.
  assert (K : exists gs, Forall2 (fun x g => writes (save x) g /\ P x g) l gs).
  { clear Hm. induction l as [|x t IH]; [exists []; constructor|]. destruct (H x) as [g Hg]; [now left|].
    destruct IH as [gs Hgs]; [intros; apply H; now right|]. exists (g :: gs). now constructor. }
  destruct K as [gs K]. exists gs. split.
  - clear Hm H. induction K; constructor; tauto.
  - apply egroups_writes; auto. clear Hm H. induction K; constructor; tauto.
Qed.
(* member `name` of the groups written *)
Lemma lgroups_all {A B} name (g : node) (l : list A) (ld : A -> node -> res B) (out : A -> B) gs m rest :
  injective name -> kids g = m ++ number name 0 gs ++ rest -> (forall j, assoc (name j) m = None) ->
  Forall2 (fun x n => ld x n = Ok (out x)) l gs ->
  lgroups name g 0 (map ld l) = Ok (map out l).
Proof.
  intros Hn Hk Hm HF.
  assert (L : length gs = length l) by (clear -HF; induction HF; simpl; auto).
  apply lgroups_reads with (gs := gs).
  - intros k x Hx. rewrite Hk, !assoc_app, Hm, number_get, Hx by auto. reflexivity.
  - now rewrite map_length.
  - intros k ldk x y A1 A2 A3. rewrite nth_error_map in A1. destruct (nth_error l k) as [z|] eqn:E; [|discriminate].
    simpl in A1. inversion A1; subst. rewrite nth_error_map, E in A3. simpl in A3. inversion A3; subst.
    clear -HF E A2. revert l gs HF E A2. induction k; intros l gs HF E A2; inversion HF; subst; simpl in *; try discriminate.
    + congruence.
    + eapply IHk; eauto.
  - now rewrite !map_length.
Qed.
(* ---- numbered datasets ------------------------------------------------------------------------------------------------------ *)
Lemma edsets_writes {A} name (f : A -> option dval) l : injective name -> forall ds i a m,
  Forall2 (fun x d => f x = Some d) l ds -> (forall j, i <= j -> assoc (name j) m = None) ->
  wexecs (edsets name f i l) None (a, m) = ((a, m ++ number name i (map (Dset []) ds)), Done, None).
Proof.
  intros Hn. induction l as [|x t IH]; intros ds i a m HF Hm; inversion HF as [|? d ? ds' Hd Ht]; subst; cbn [edsets map number].
  - simpl. now rewrite app_nil_r.
  - cbn [wexecs wexec]. rewrite Hd. cbn [snd fst]. rewrite Hm by lia. cbn [tick].
    fold (@edsets A name f). rewrite (IH ds'); [|auto|].
    + now rewrite <- app_assoc.
    + intros j Hj. rewrite assoc_app, Hm by lia. simpl.
      destruct (String.eqb (name j) (name i)) eqn:Q; [apply String.eqb_eq, Hn in Q; lia|auto].
Qed.
Lemma ldsets_reads {A} name (f : dval -> res A) (g : node) : forall n ds xs i,
  (forall k d, nth_error ds k = Some d -> dset (name (i + k)) g = Ok d) ->
  length ds = n -> Forall2 (fun d x => f d = Ok x) ds xs -> ldsets name f g i n = Ok xs.
Proof.
  induction n as [|n IH]; intros ds xs i Hd L HF; destruct ds as [|d ds]; try discriminate; inversion HF as [|? x ? xs' Hx Ht]; subst; [auto|].
  cbn [ldsets]. rewrite <- (Nat.add_0_r i) at 1. rewrite (Hd 0 d eq_refl). cbn [bind]. rewrite Hx. cbn [bind].
  fold (@ldsets A name f g). simpl in L. rewrite (IH ds xs' (S i)); [auto| |lia|auto].
  intros k z Hz. rewrite <- (Hd (S k) z Hz). f_equal. f_equal. lia.
Qed.
