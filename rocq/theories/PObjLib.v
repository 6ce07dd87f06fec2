(* PObjLib.v -- the affine and interpolated operators of the library are parametric operator objects. *)
From Coq Require Import ZArith String Lia.
From Verif Require Import LinAlg MatAlg BlockAlg OpsProofs AffProofs ObjLib PObjProofs.
From Verif Require Import ItpModel.
From Verif Require GenModel.
From Verif Require Import SpecPObj.
#[local] Open Scope nat_scope.
#[local] Open Scope list_scope.

(* operators/_affine.py and operators/_interpolate.py as objects *)
Definition as_pop (o : aff + itp) : pop := match o with inl a => PAff a | inr t => PItp t end.
Definition lib_pworld (X : pext) (solve : mat -> mat -> res mat) (junk : nat -> vec) (eqv : mop + (aff + itp) -> mop + (aff + itp) -> bool) : pworld (lib_world solve junk) :=
  {| pobj := (aff + itp)%type;
     pw_ent := fun o => Some (negb (puncal (as_pop o)));
     pw_type := fun o => GenModel.type_of (pcls (as_pop o));
     pw_dim := fun o => prows (as_pop o);
     pw_in := fun o => if ptakes (as_pop o) then Some (pinputs (as_pop o)) else None;
     PObjModel.pw_p := fun o => pdim (as_pop o);
     pw_setp := fun o n => match pdim (as_pop o) with                      (* operators/_base.py:1265-1275 *)
                           | Some _ => Err AttributeError
                           | None => if n =? 0 then Err ValueError else match o with
                                     | inl a => Ok (inl {| a_cls := a_cls a; a_theta := a_theta a; a_nterms := a_nterms a; a_pdim := Some n; a_entries := a_entries a |})
                                     | inr t => Ok (inr {| i_cls := i_cls t; i_pdim := Some n; i_params := i_params t; i_entries := i_entries t; i_interp := i_interp t; i_iclass := i_iclass t |})
                                     end
                           end;
     pw_eval := fun o mu => (snd (pop_eval (as_pop o) mu) : res (obj (lib_world solve junk)));
     pw_galerkin := fun o Vr Wr => match o with inl a => bindmap (aff_galerkin solve junk a Vr Wr) inl | inr t => bindmap (i_galerkin X solve junk t Vr Wr) inr end;
     pw_copy := fun o => match o with inl a => bindmap (aff_copy a) inl | inr t => bindmap (i_copy (px_cubic X) (px_linnd X) t) inr end;
     pw_eq := eqv |}.

Theorem lib_setter X solve junk eqv : plain_setter (lib_pworld X solve junk eqv).
Proof. intros o n o'. cbn. destruct (pdim (as_pop o)) eqn:E; [discriminate|]. destruct (n =? 0); [discriminate|]. destruct o as [a|t]; intros [= <-]; cbn; auto 10. Qed.
Lemma lib_kept_inv X solve junk eqv x o o' : kept (lib_pworld X solve junk eqv) x o o' -> o' = o \/ exists n, x = Some n /\ pdim (as_pop o) = None /\ pw_setp (lib_pworld X solve junk eqv) o n = Ok o'.
Proof. unfold kept. destruct x as [n|]; auto. change (PObjModel.pw_p (lib_pworld X solve junk eqv) o) with (pdim (as_pop o)). destruct (pdim (as_pop o)) eqn:E; auto. intros H. right. eauto. Qed.
Lemma behaves_ext W r m o f g : (forall q u i, is_vec r q -> is_vec m u -> i < r -> f q u i = g q u i) -> behaves W r m o f -> behaves W r m o g.
Proof. intros H [B1 B2 B3 B4]. constructor; auto. intros q u ou Hq Hu. destruct (B4 q u ou Hq Hu) as (y & E & Hy & Hv). exists y. split; auto. split; auto. intros i Hi. rewrite Hv by auto. apply H; auto. apply Hu. Qed.
Lemma affine_eval solve junk r m a ops mu : 0 < r -> 0 < m -> affine_of r m a ops -> (forall n, a_pdim a = Some n -> plen mu = n) -> match a_theta a mu with TS _ => a_nterms a = 1 | TV v => length v = a_nterms a end ->
  exists e, snd (aff_evaluate a mu) = Ok e /\ cls_of e = a_cls a /\ behaves (lib_world solve junk) r m {| mo_cls := a_cls a; mo_ent := Some e |} (affine_fn a ops mu).
Proof. intros Hr Hm HA Hp Ht. set (th := match a_theta a mu with TS x => [x] | TV v => v end).
  assert (Eth : thetas a mu = Ok th /\ length th = a_nterms a). { unfold thetas, th. destruct (a_theta a mu); [rewrite Ht; auto|auto]. }
  destruct Eth as (E1 & E2). assert (Hp' : match a_pdim a with Some p => plen mu = p | None => True end) by (destruct (a_pdim a); auto).
  destruct (evaluate_ok r m a ops mu th Hr HA Hp' E1 E2) as (e & Ee & Hw & Hc & _). exists e. split; auto. split; auto. rewrite <- Hc. apply (behaves_ext _ _ _ _ (fun q u i => vget (matvec (entries2 e) (datavec e q u)) i)); [|apply lib_behaves; auto].
  intros q u i Hq Hu Hi. destruct (evaluate_apply r m a ops mu th e q u Hr Hm HA Hp' E1 E2 Hq Hu Ee) as (y & ys & Ey & Hys & _ & _ & Hv). rewrite (apply_vec r m) in Ey by auto. injection Ey as Ey. rewrite Ey, Hv by auto. unfold affine_fn. fold th.
  destruct HA as (_ & HF & HL & _). apply bsum_ext. intros k Hk. f_equal. f_equal. assert (Hk' : k < length ops) by lia. unfold SpecParam.family in HF. rewrite Forall_forall in HF. clear - Hk' HF Hys Hr Hm Hq Hu. revert k Hk'. induction Hys as [|o y ops ys H Hys IH]; intros k Hk; [cbn in Hk; lia|].
  destruct k as [|k]; cbn [nth].
  - destruct (HF o) as (Hw & _); [left; auto|]. rewrite (apply_vec r m) in H by auto. injection H as ->. auto.
  - apply IH; [intros; apply HF; right; auto|cbn in Hk; lia]. Qed.
Theorem lib_affine X solve junk eqv r m x a ops : 0 < r -> 0 < m -> affine_of r m a ops -> xdescribed (lib_pworld X solve junk eqv) r m x (affine_dom x a) (inr (inl a)) (affine_fn a ops).
Proof. intros Hr Hm HA p' HK. assert (K : exists a', p' = inl a' /\ a_cls a' = a_cls a /\ a_theta a' = a_theta a /\ a_nterms a' = a_nterms a /\ a_entries a' = a_entries a /\ (forall n, a_pdim a' = Some n -> x = Some n \/ a_pdim a = Some n)).
  { apply lib_kept_inv in HK. destruct HK as [ -> | (n & -> & Hn & E) ]; [exists a; auto 10|]. cbn in E, Hn. rewrite Hn in E. destruct (n =? 0); [discriminate|]. injection E as <-. eexists. split; [reflexivity|]. cbn. auto 10. }
  destruct K as (a' & -> & K1 & K2 & K3 & K4 & K5). split. { cbn. unfold ptakes, pinputs. cbn. rewrite K1, K4. auto. }
  intros mu (D1 & D2). destruct (affine_eval solve junk r m a' ops mu Hr Hm) as (e & Ee & Hc & HB). { destruct HA as (A1 & A2 & A3 & A4). split; [congruence|]. rewrite K1, K3. auto. } { intros n Hn. apply D1. auto. } { rewrite K2, K3. auto. }
  exists {| mo_cls := a_cls a'; mo_ent := Some e |}. split. { cbn. destruct (aff_evaluate a' mu) as [a2 y] eqn:E2. cbn in Ee. subst y. auto. }
  split. { replace (affine_fn a ops mu) with (affine_fn a' ops mu); auto. unfold affine_fn. rewrite K2, K3. auto. }
  unfold takes_in. cbn. unfold takes_input, ptakes. cbn. destruct (has_inputs (a_cls a')); congruence. Qed.
Theorem lib_interpolated X solve junk eqv r m x t f A : 0 < r -> 0 < m -> i_entries t <> None -> i_interp t = Some f -> xdescribed (lib_pworld X solve junk eqv) r m x (interpolated_dom r m t f A) (inr (inr t)) (interpolated_fn t A).
Proof. intros Hr Hm He Hf p' HK. destruct (i_pdim t) as [p|] eqn:Ep.
  2:{ split. { apply lib_kept_inv in HK. destruct HK as [ -> | (n & -> & Hn & E) ]; auto. apply (lib_setter X solve junk eqv _ _ _ E). } intros mu (D & _). congruence. }
  assert (p' = inr t). { apply lib_kept_inv in HK. destruct HK as [ -> | (n & _ & Hn & _) ]; auto. cbn in Hn. congruence. } subst p'. split; auto. intros mu (D1 & D2). rewrite Ep in D1. injection D1 as ->. destruct D2 as (D2 & D3).
  destruct (construct_ok (i_cls t) r m _ Hr D3) as (e & E1 & E2 & E3 & E4). exists {| mo_cls := i_cls t; mo_ent := Some e |}.
  split. { cbn. unfold i_evaluate. destruct (i_entries t); [|congruence]. rewrite Hf, Ep, Nat.eqb_refl. cbn [negb]. rewrite D2. cbn [bind]. rewrite E1. auto. }
  split. { rewrite <- E3. apply (behaves_ext _ _ _ _ (fun q u i => vget (matvec (entries2 e) (datavec e q u)) i)); [|apply lib_behaves; auto]. intros q u i Hq Hu Hi. unfold interpolated_fn. rewrite E4. rewrite (datavec_cls (proto (i_cls t)) e) by (rewrite cls_proto; auto). auto. }
  unfold takes_in. cbn. unfold takes_input, ptakes. cbn. destruct (has_inputs (i_cls t)); congruence. Qed.
(* evaluate() of library operators cannot be done at a parameter of another length *)
Theorem lib_affine_rejects X solve junk eqv a mu n : a_entries a <> None -> a_pdim a = Some n -> plen mu <> n -> pw_eval (lib_pworld X solve junk eqv) (inl a) mu = Err ValueError.
Proof. intros He Hp Hn. cbn. unfold aff_evaluate. destruct (a_entries a); [|congruence]. rewrite Hp. destruct (Nat.eqb_spec (plen mu) n); [congruence|]. auto. Qed.
