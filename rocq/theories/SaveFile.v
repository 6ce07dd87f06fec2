(* SaveFile.v -- proofs of C45: files are not overwritten without permission. *)
From Coq Require Import String ZArith Lia.
From Verif Require Export HdfProofs.
#[local] Open Scope string_scope.
#[local] Open Scope nat_scope.
#[local] Open Scope list_scope.

Lemma save_refuses I w f path x : is_file f path -> save I w f path (Some false) x = (f, Raised FileExistsError).
Proof. intros [c H]. unfold save, save_file. now rewrite H. Qed.
Lemma save_default I w f path x : is_file f path -> (forall p, x <> SvPost p) -> save I w f path None x = (f, Raised FileExistsError).
Proof. intros [c H] N. unfold save, save_file. rewrite H. destruct x; simpl; auto. exfalso; eapply N; eauto. Qed.
Lemma save_other I w f path ow x q : q <> path -> untouched f (fst (save I w f path ow x)) q.
Proof.
  intros N. unfold untouched, save, save_file.
  assert (K : fst (if w_open w then
        let '(g, s, _) := wexecs (events_of I x) (option_map fst (w_kill w)) ([], []) in
        (fset path (File (match s, w_kill w with Killed, Some (_, false) => None | _, _ => Some (Grp (fst g) (snd g)) end)) f, s)
      else (f, Raised OtherError)) q = f q).
  { destruct (w_open w); [|auto]. destruct (wexecs _ _ _) as [[g s] k]. simpl. apply fset_other. auto. }
  destruct (f path) as [[c|]|]; destruct (match ow with Some b => b | None => default_overwrite x end); auto.
Qed.
Lemma save_forbidden I f c : is_file f (c_path c) -> ~ permitted c -> srun1 I f c = (f, Raised FileExistsError).
Proof.
  intros [n H] N. unfold srun1, save, save_file. rewrite H. unfold permitted in N.
  destruct (c_ow c) as [[]|]; auto; [exfalso; auto|]. destruct (default_overwrite (c_obj c)); [exfalso; auto|auto].
Qed.
Lemma save_history I l : forall f q, is_file f q -> (forall c, In c l -> c_path c = q -> ~ permitted c) -> untouched f (after_saves I f l) q.
Proof.
  induction l as [|c t IH]; intros f q H N; [reflexivity|]. simpl.
  assert (K : untouched f (fst (srun1 I f c)) q).
  { destruct (string_dec (c_path c) q) as [<-|D].
    - rewrite save_forbidden; [reflexivity|auto|]. apply N; auto. now left.
    - apply save_other. auto. }
  unfold untouched in *. rewrite IH.
  - exact K.
  - destruct H as [n H]. exists n. congruence.
  - intros c' Hc. apply N. now right.
Qed.
(* a path never named by any call is never touched, whatever is or is not there *)
Lemma save_elsewhere I l : forall f q, (forall c, In c l -> c_path c <> q) -> untouched f (after_saves I f l) q.
Proof.
  induction l as [|c t IH]; intros f q N; [reflexivity|]. simpl. unfold untouched in *. rewrite IH by (intros; apply N; now right).
  apply save_other. intros ->. eapply N; [now left|reflexivity].
Qed.
(* what a returning save leaves does not depend on the world, on the previous contents or on the argument *)
Lemma save_contents I x w1 w2 f1 f2 p1 p2 o1 o2 g1 g2 :
  save I w1 f1 p1 o1 x = (g1, Done) -> save I w2 f2 p2 o2 x = (g2, Done) -> g1 p1 = g2 p2.
Proof.
  unfold save. intros H1 H2. apply save_done in H1, H2. destruct H1 as [a [l [E ->]]], H2 as [a' [l' [E' ->]]].
  rewrite E in E'. inversion E'; subst. now rewrite !fset_same.
Qed.
(* a save that may overwrite, and is not disturbed, returns if it returns on a new path *)
Lemma save_overwrites I f path x : saves I x -> is_file f path -> exists f', save I calm f path (Some true) x = (f', Done).
Proof.
  intros HS [c H]. destruct (HS (fun _ => None) path eq_refl) as [f' E]. unfold save in E. apply save_done in E.
  destruct E as [a [l [E _]]]. unfold save, save_file. rewrite H. simpl. rewrite E. eauto.
Qed.
(* reading *)
Lemma load_missing {A} (body : node -> res A) f path : ~ is_file f path -> load_file f path body = Err FileNotFoundError.
Proof. intros H. unfold load_file. destruct (f path) as [[c|]|] eqn:E; auto. exfalso. apply H. now exists c. Qed.
Lemma load_format {A} (body : node -> res A) f path g e : f path = Some (File (Some g)) -> body g = Err e -> load_file f path body = Err LoadfileFormatError.
Proof. intros H E. unfold load_file. now rewrite H, E. Qed.

(* ---- what does not hold ------------------------------------------------------------------------------------------------ *)
Lemma post_overwrites I w f path p : w_open w = true -> w_kill w = None -> is_file f path -> saves I (SvPost p) ->
  exists f', save I w f path None (SvPost p) = (f', Done) /\ exists g, f' path = Some (File (Some g)).
Proof.
  intros W1 W2 [c H] HS. destruct (HS (fun _ => None) path eq_refl) as [f' E]. unfold save in E. apply save_done in E.
  destruct E as [a [l [E _]]]. unfold save, save_file. rewrite H. cbn [default_overwrite]. rewrite W1, W2. simpl option_map. rewrite E.
  eexists; split; [reflexivity|]. rewrite fset_same. eauto.
Qed.
(* the process is killed before the first call returns: the old contents are gone *)
Lemma killed_loses I f path x ok : is_file f path -> events_of I x <> [] ->
  (forall e, head (events_of I x) <> Some (ERaise e)) -> (forall nm, head (events_of I x) <> Some (EData nm None)) ->
  (forall nm k v, head (events_of I x) <> Some (EAttr nm k v)) ->
  save I {| w_open := true; w_kill := Some (0, ok) |} f path (Some true) x =
  (fset path (File (if ok then Some (Grp [] []) else None)) f, Killed).
Proof.
  intros [c H] N1 N2 N3 N4. unfold save, save_file. rewrite H. cbn [w_open w_kill option_map fst].
  destruct (events_of I x) as [|e t]; [congruence|]. cbn [wexecs].
  destruct e as [nm [d|]|nm k v|k v|nm evs|e]; simpl in *; try (destruct ok; reflexivity).
  - exfalso; eapply N3; reflexivity.
  - exfalso; eapply N4; reflexivity.
  - exfalso; eapply N2; reflexivity.
Qed.
Lemma raising_loses I w f path x g s k : w_open w = true -> w_kill w = None -> is_file f path ->
  wexecs (events_of I x) None ([], []) = (g, s, k) -> s <> Done ->
  save I w f path (Some true) x = (fset path (File (Some (Grp (fst g) (snd g)))) f, s).
Proof.
  intros W1 W2 [c H] E N. unfold save, save_file. rewrite H, W1, W2. simpl option_map. rewrite E. destruct s; auto.
Qed.
