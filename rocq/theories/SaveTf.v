(* SaveTf.v -- proofs of C46 for transformers. *)
From Coq Require Import String ZArith Lia.
From Verif Require Import PreFit.
From Verif Require Export SaveFile.
#[local] Open Scope string_scope.
#[local] Open Scope nat_scope.
#[local] Open Scope list_scope.

Lemma str_name_str nm : keeps_name nm -> str_name (name_str nm) = nm.
Proof.
  unfold keeps_name, str_name, name_str. destruct nm as [s|]; [|reflexivity]. intros H.
  destruct (String.eqb s "None") eqn:E; [|reflexivity]. apply String.eqb_eq in E. congruence.
Qed.
Lemma scaling_back s : scaling_of (scaling_str s) = Ok s /\ String.eqb (scaling_str s) "" = false.
Proof. destruct s; split; reflexivity. Qed.

(* what is true of every state a ShiftScaleTransformer can reach *)
Record ssi (s : ss) : Prop := {
  si_norm : exists s0, ss_init (ss_cent s) (ss_scaling s) (ss_byrow s) (ss_name s) = Ok s0;
  si_cent : ss_cent s = false -> ss_mean s = None;
  si_mean : forall v, ss_mean s = Some v -> ss_n s = Some (length v);
  si_noscale : ss_scaling s = None -> ss_scale s = None /\ ss_shift s = None;
  si_scale : forall c, ss_scale s = Some c -> if ss_byrow s then exists v, c = Vc v /\ ss_n s = Some (length v) else exists x, c = Sc x;
  si_shift : forall c, ss_shift s = Some c -> if ss_byrow s then exists v, c = Vc v /\ ss_n s = Some (length v) else exists x, c = Sc x }.
Lemma fix_n_ok n c k : fix_n n c = Ok k -> exists v, c = Vc v /\ k = length v /\ (n = None \/ n = Some (length v)).
Proof.
  unfold fix_n. destruct c as [x|v]; [discriminate|]. destruct n as [m|].
  - destruct (length v =? m) eqn:E; [|discriminate]. apply Nat.eqb_eq in E. intros H. inversion H; subst. eauto.
  - intros H. inversion H; subst. eauto.
Qed.
Lemma ss_reach_inv s : ss_reach s -> ssi s.
Proof.
  induction 1 as [c sc b nm s H|s a s' p _ IH H|s v s' _ IH H|s c s' _ IH HC H|s c s' _ IH HC H|s nm _ IH|s n _ IH H1 H2 H3].
  - unfold ss_init in H. destruct (_ && _) eqn:E; [discriminate|]. inversion H; subst. constructor; simpl; try discriminate; auto.
    unfold ss_init. rewrite E. eauto.
  - pose proof (ss_fit_ok _ _ _ _ H) as [_ [[N [Hm Hs]] [C1 [C2 C3]]]].
    assert (NM : ss_name s' = ss_name s /\ (ss_cent s = false -> ss_mean s' = ss_mean s) /\ (ss_scaling s = None -> ss_scale s' = ss_scale s /\ ss_shift s' = ss_shift s)).
    { unfold ss_fit in H. destruct a as [|Y]; [discriminate|]. bindH H. destruct a as [mean p1]. cbv beta iota in H. bindH H. bindH H. destruct a0 as [[al be] p3]. inversion H; subst. simpl.
      split; auto. split; [intros Q; rewrite Q in E; inversion E; auto|]. intros Q. rewrite Q in E1. inversion E1; auto. }
    destruct NM as [NM [NC NS]]. destruct IH as [I1 I2 I3 I4 I5 I6]. constructor.
    + rewrite C1, C2, C3, NM. auto.
    + rewrite C1. intros Q. rewrite NC; auto.
    + intros v Hv. destruct (ss_cent s) eqn:Q.
      * destruct (Hm C1) as [m [E1 E2]]. rewrite N. congruence.
      * rewrite NC, I2 in Hv by auto. discriminate.
    + rewrite C2. intros Q. destruct (NS Q) as [-> ->]. auto.
    + intros c Hc. destruct (ss_scaling s) eqn:Q.
      * specialize (Hs ltac:(rewrite C2; discriminate)). destruct (ss_byrow s').
        -- destruct Hs as [al [be [E1 [E2 [E3 [E4 _]]]]]]. exists al. split; congruence.
        -- destruct Hs as [al [be [E1 [E2 _]]]]. exists al. congruence.
      * destruct (NS eq_refl) as [E1 _]. destruct (I4 eq_refl) as [E2 _]. congruence.
    + intros c Hc. destruct (ss_scaling s) eqn:Q.
      * specialize (Hs ltac:(rewrite C2; discriminate)). destruct (ss_byrow s').
        -- destruct Hs as [al [be [E1 [E2 [E3 [E4 _]]]]]]. exists be. split; congruence.
        -- destruct Hs as [al [be [E1 [E2 _]]]]. exists be. congruence.
      * destruct (NS eq_refl) as [_ E1]. destruct (I4 eq_refl) as [_ E2]. congruence.
  - unfold ss_set_mean in H. destruct (ss_cent s) eqn:Q; [|discriminate]. cbn [negb] in H. bindH H. inversion H; subst. clear H.
    apply fix_n_ok in E. destruct E as [u [Eu [-> E]]]. inversion Eu; subst u. destruct IH as [I1 I2 I3 I4 I5 I6]. constructor; simpl; auto.
    + rewrite Q. discriminate.
    + intros w Hw. inversion Hw; auto.
    + intros c Hc. specialize (I5 c Hc). destruct (ss_byrow s); auto. destruct I5 as [w [-> I5]]. exists w. split; auto. destruct E; congruence.
    + intros c Hc. specialize (I6 c Hc). destruct (ss_byrow s); auto. destruct I6 as [w [-> I6]]. exists w. split; auto. destruct E; congruence.
  - unfold ss_set_scale in H. destruct (ss_scaling s) as [sc|] eqn:Q; [|discriminate]. simpl is_none in H. cbv iota in H. destruct IH as [I1 I2 I3 I4 I5 I6]. rewrite Q in I1, I4.
    destruct (ss_byrow s) eqn:B.
    + bindH H. inversion H; subst. clear H. apply fix_n_ok in E. destruct E as [u [-> [-> E]]]. constructor; simpl; rewrite ?B, ?Q; try discriminate; try exact I1; try exact I2; try exact I3; try exact I5; try exact I6.
      * intros v Hv. apply I3 in Hv. destruct E; congruence.
      * intros c Hc. inversion Hc; subst. eauto.
      * intros c Hc. apply I6 in Hc. destruct Hc as [w [-> Hw]]. exists w. split; auto. destruct E; congruence.
    + inversion H; subst. clear H. constructor; simpl; rewrite ?B, ?Q; try discriminate; try exact I1; try exact I2; try exact I3; try exact I5; try exact I6.
      intros c' Hc. inversion Hc; subst. auto.
  - unfold ss_set_shift in H. destruct (ss_scaling s) as [sc|] eqn:Q; [|discriminate]. simpl is_none in H. cbv iota in H. destruct IH as [I1 I2 I3 I4 I5 I6]. rewrite Q in I1, I4.
    destruct (ss_byrow s) eqn:B.
    + bindH H. inversion H; subst. clear H. apply fix_n_ok in E. destruct E as [u [-> [-> E]]]. constructor; simpl; rewrite ?B, ?Q; try discriminate; try exact I1; try exact I2; try exact I3; try exact I5; try exact I6.
      * intros v Hv. apply I3 in Hv. destruct E; congruence.
      * intros c Hc. apply I5 in Hc. destruct Hc as [w [-> Hw]]. exists w. split; auto. destruct E; congruence.
      * intros c Hc. inversion Hc; subst. eauto.
    + inversion H; subst. clear H. constructor; simpl; rewrite ?B, ?Q; try discriminate; try exact I1; try exact I2; try exact I3; try exact I5; try exact I6.
      intros c' Hc. inversion Hc; subst. auto.
  - destruct IH as [I1 I2 I3 I4 I5 I6]. constructor; simpl; auto. destruct I1 as [s0 I1]. unfold ss_init in *. destruct (_ && _); [discriminate|]. eauto.
  - destruct IH as [I1 I2 I3 I4 I5 I6]. constructor; simpl; auto; rewrite ?H1, ?H2, ?H3; try discriminate; auto.
Qed.
Lemma ss_eta s : s = {| ss_cent := ss_cent s; ss_scaling := ss_scaling s; ss_byrow := ss_byrow s; ss_name := ss_name s;
     ss_n := ss_n s; ss_mean := ss_mean s; ss_scale := ss_scale s; ss_shift := ss_shift s |}.
Proof. now destruct s. Qed.
Lemma fix_n_same v : fix_n (Some (length v)) (Vc v) = Ok (length v).
Proof. unfold fix_n. now rewrite Nat.eqb_refl. Qed.

Ltac fin := repeat match goal with H : Some ?k = Some (length ?u) |- _ => injection H as H; apply eq_sym, Nat.eqb_eq in H end;
  cbn; unfold ss_set_mean, ss_set_scale, ss_set_shift, fix_n; cbn;
  repeat (match goal with H : (length ?u =? ?k) = true |- _ => rewrite H end; cbn); reflexivity.
Lemma plain_back t : plain_tf t -> exists g, writes (tf_events t) g /\ tf_load1 (tf_class t) g = Ok t.
Proof.
  destruct t as [ref nm|c n nm|s|n nm|l nm|l]; simpl; try tauto.
  - intros H. eexists. split; [do 2 eexists; split; reflexivity|]. cbn. now rewrite str_name_str.
  - intros [H [NZ HV]]. destruct n as [n|]; (eexists; split; [do 2 eexists; split; reflexivity|]); cbn; rewrite str_name_str by auto; destruct c as [x|v].
    + unfold mk_scale. rewrite NZ. cbn. now rewrite Nat2Z.id.
    + destruct (HV v eq_refl) as [E N]. inversion E; subst.
      assert (Q : (match v with [x] => Sc x | _ => Vc v end) = Vc v) by (destruct v as [|? [|]]; auto; simpl in N; lia).
      rewrite Q. unfold mk_scale. rewrite NZ. reflexivity.
    + unfold mk_scale. rewrite NZ. reflexivity.
    + destruct (HV v eq_refl). discriminate.
  - intros [HR [HN [N0 HB]]]. apply ss_reach_inv in HR. destruct HR as [I1 I2 I3 I4 I5 I6].
    destruct s as [cent sc byrow nm n mean scl sh]; simpl in *. destruct I1 as [s0 I1].
    assert (I0 : s0 = {| ss_cent := cent; ss_scaling := sc; ss_byrow := byrow; ss_name := nm; ss_n := None; ss_mean := None; ss_scale := None; ss_shift := None |})
      by (unfold ss_init in I1; destruct (_ && _); inversion I1; auto).
    rewrite I0 in I1. clear I0 s0.
    assert (E1 : forall g, meta_attr "scaling" g = Ok (match sc with Some c => AvS (scaling_str c) | None => AvB false end) ->
       meta_attr "name" g = Ok (AvS (name_str nm)) -> meta_attr "centering" g = Ok (AvB cent) -> meta_attr "byrow" g = Ok (AvB byrow) ->
       meta_attr "state_dimension" g = Ok (match n with Some n => AvI (Z.of_nat n) | None => AvB false end) ->
       ss_load g = let s := {| ss_cent := cent; ss_scaling := sc; ss_byrow := byrow; ss_name := nm; ss_n := n; ss_mean := None; ss_scale := None; ss_shift := None |} in
         do s <- (if ss_cent s && has "transformation/mean_" g
           then do d <- dset "transformation/mean_" g; do v <- as_vec d; ss_set_mean v s else Ok s);
         do s <- (if negb (is_none (ss_scaling s)) && has "transformation/scale_" g
           then do d <- dset "transformation/scale_" g; do c <- read_coef (ss_byrow s) d; do s <- ss_set_scale c s;
                do d <- dset "transformation/shift_" g; do c <- read_coef (ss_byrow s) d; ss_set_shift c s
           else Ok s);
         Ok (TSS s)).
    { intros g A1 A2 A3 A4 A5. unfold ss_load. rewrite A1. cbn [bind].
      replace (match match sc with Some c => AvS (scaling_str c) | None => AvB false end with
               | AvS s => if String.eqb s "" then Ok None else do c <- scaling_of s; Ok (Some c)
               | AvB false => Ok None | _ => Err TypeError end) with (Ok sc)
        by (destruct sc as [c|]; [destruct (scaling_back c) as [-> ->]; reflexivity|reflexivity]).
      cbn [bind]. rewrite A2, A3, A4. cbn [bind as_str as_bool]. rewrite str_name_str by auto. rewrite I1, A5. cbn [bind].
      destruct n as [n|]; [|reflexivity]. destruct (Z.of_nat n =? 0)%Z eqn:Z0; [apply Z.eqb_eq in Z0; assert (n = 0) by lia; congruence|].
      rewrite Nat2Z.id. reflexivity. }
    destruct n as [k|]; destruct cent; (destruct sc as [sc|]; [destruct scl as [c|], sh as [c'|]; try (destruct HB as [HB1 HB2]; (discriminate (HB1 eq_refl) || discriminate (HB2 eq_refl)))
      |destruct (I4 eq_refl) as [-> ->]]); (destruct mean as [mu|]; [try (discriminate (I2 eq_refl)); pose proof (I3 mu eq_refl) as Ln; try discriminate Ln|]);
      try (specialize (I5 _ eq_refl); specialize (I6 _ eq_refl); destruct byrow; [destruct I5 as [u [-> L1]], I6 as [u' [-> L2]]; try discriminate L1|destruct I5 as [u ->], I6 as [u' ->]]);
      (eexists; split; [do 2 eexists; split; reflexivity|]); rewrite E1 by reflexivity; clear I3; fin.
  - intros H. destruct n as [n|]; (eexists; split; [do 2 eexists; split; reflexivity|]); cbn; rewrite str_name_str by auto; rewrite ?Nat2Z.id; reflexivity.
Qed.

(* ---- joins -------------------------------------------------------------------------------------------------------------- *)
Lemma agree_consistent l : dims_agree l -> consistent_dims (map tf_dim l) = true.
Proof.
  intros H. unfold consistent_dims.
  assert (K : forall n, In n (concat (map (fun d => match d with Some n => [n] | None => [] end) (map tf_dim l))) -> exists t, In t l /\ tf_dim t = Some n).
  { intros n Hn. apply in_concat in Hn. destruct Hn as [x [Hx Hn]]. apply in_map_iff in Hx. destruct Hx as [d [<- Hd]].
    apply in_map_iff in Hd. destruct Hd as [t [<- Ht]]. exists t. split; auto. destruct (tf_dim t); [|destruct Hn]. destruct Hn as [->|[]]; auto. }
  destruct (concat _) as [|n ns]; [auto|]. apply forallb_forall. intros n' Hn. apply Nat.eqb_eq.
  destruct (K n) as [t [T1 T2]]; [now left|]. destruct (K n') as [t' [T3 T4]]; [now right|]. exact (H t t' n n' T1 T3 T2 T4).
Qed.
Lemma F2_impl {A B} (P Q : A -> B -> Prop) l l' : (forall a b, P a b -> Q a b) -> Forall2 P l l' -> Forall2 Q l l'.
Proof. intros H F. induction F; constructor; auto. Qed.
Lemma tf_join (l : list tf) name a m : injective name -> Forall plain_tf l -> (forall j, assoc (name j) m = None) ->
  exists gs, wexecs (egroups name tf_events 0 l) None (a, m) = ((a, m ++ number name 0 gs), Done, None) /\
    forall g, kids g = m ++ number name 0 gs -> lgroups name g 0 (map tf_load1 (map tf_class l)) = Ok l.
Proof.
  intros Hn HP Hm.
  destruct (egroups_all name tf_events l (fun t n => tf_load1 (tf_class t) n = Ok t) a m Hn) as [gs [F E]]; auto.
  { intros t Ht. apply plain_back. rewrite Forall_forall in HP. auto. }
  exists gs. split; auto. intros g Hg. rewrite map_map.
  rewrite (lgroups_all name g l (fun t => tf_load1 (tf_class t)) (fun t => t) gs m []); auto.
  - now rewrite map_id.
  - now rewrite app_nil_r.
Qed.
Lemma pipe_back I l nm : Forall plain_tf l -> dims_agree l ->
  comes_back I (SvTf (TPipe l (Some nm))) (pipe_load (map tf_class l)) (TPipe l (Some nm)).
Proof.
  intros HP HD.
  destruct (tf_join l (fun i => String.append "transformer_" (dec2 i)) []
     [("meta", Dset [("name", AvS nm); ("num_transformers", AvI (Z.of_nat (length l)))] (DV []))]) as [gs [E K]]; auto.
  { apply (name_dec2 "transformer_"). }
  eapply comes_back_w.
  - do 2 eexists. split; [reflexivity|]. cbn [events_of tf_events name_str app]. cbn [wexecs wexec empty assoc snd fst tick app nset option_map aset String.eqb].
    cbn -[egroups wexecs dec2]. cbn -[egroups wexecs dec2] in E. exact E.
  - pose proof (K (Grp [] ([("meta", Dset [("name", AvS nm); ("num_transformers", AvI (Z.of_nat (length l)))] (DV []))] ++ number (fun i => String.append "transformer_" (dec2 i)) 0 gs)) eq_refl) as K'.
    unfold pipe_load. cbn [meta_attr item kids app assoc]. cbn -[lgroups dec2 number mk_pipe Z.of_nat] in K' |- *. rewrite map_length, Z.eqb_refl. cbn -[lgroups dec2 number mk_pipe Z.of_nat]. rewrite K'. cbn [bind].
    unfold mk_pipe. now rewrite agree_consistent.
Qed.
Lemma named_same l : Forall (fun t => tf_name t <> None) l -> Forall plain_tf l -> l <> [] -> mk_multi (map Some l) None = Ok (TMulti l).
Proof.
  intros HN HP Hl. unfold mk_multi. destruct l as [|t0 t]; [congruence|]. set (l := t0 :: t) in *. clearbody l.
  change (match map Some l with [] => Err ValueError | _ :: _ => _ end) with (match map Some l with [] => Err ValueError | _ :: _ =>
     do tfs <- mapM (fun it => match snd it with TMulti _ => Err AttributeError
         | t => Ok (match tf_name t with None => tf_set_name (Some (variable_name (fst it))) t | Some _ => t end) end)
        (combine (seq 0 (length (map (fun t => match t with None => mk_null None | Some t => t end) (map Some l)))) (map (fun t => match t with None => mk_null None | Some t => t end) (map Some l)));
     Ok (TMulti tfs) end).
  destruct l as [|x xs] eqn:El; [congruence|]. rewrite <- El in *. replace (map Some l) with (Some x :: map Some xs) at 1 by (rewrite El; auto).
  rewrite map_map, map_id.
  assert (K : forall l i, Forall (fun t => tf_name t <> None) l -> Forall plain_tf l ->
    mapM (fun it : nat * tf => match snd it with TMulti _ => Err AttributeError
         | t => Ok (match tf_name t with None => tf_set_name (Some (variable_name (fst it))) t | Some _ => t end) end) (combine (seq i (length l)) l) = Ok l).
  { clear. induction l as [|t l IH]; intros i H1 H2; [auto|]. inversion H1; inversion H2; subst. cbn [length seq combine mapM snd].
    rewrite IH by auto. destruct t as [r nm|c n nm|s|n nm|l0 nm|l0]; simpl in *; try tauto; try (destruct nm; [reflexivity|congruence]).
    destruct (ss_name s); [reflexivity|congruence]. }
  rewrite K; auto.
Qed.
Lemma multi_back I l c : l <> [] -> Forall plain_tf l -> Forall (fun t => tf_name t <> None) l ->
  c = Each (map tf_class l) \/ (exists k, c = One k /\ Forall (fun t => tf_class t = k) l) ->
  comes_back I (SvTf (TMulti l)) (tmulti_load c) (TMulti l).
Proof.
  intros Hl HP HN HC.
  destruct (tf_join l (fun i => String.append "variable" (dec i)) []
     [("num_variables", Dset [] (DZ [Z.of_nat (length l)]))]) as [gs [E K]]; auto.
  { apply (name_dec "variable"). }
  eapply comes_back_w.
  - do 2 eexists. split; [reflexivity|]. cbn -[egroups dec] in E |- *. exact E.
  - pose proof (K (Grp [] ([("num_variables", Dset [] (DZ [Z.of_nat (length l)]))] ++ number (fun i => String.append "variable" (dec i)) 0 gs)) eq_refl) as K'.
    unfold tmulti_load, num_variables. cbn -[lgroups dec number mk_multi Z.of_nat] in K' |- *.
    assert (KS : match c with One k => repeat k (Z.to_nat (Z.of_nat (length l))) | Each ks => ks end = map tf_class l).
    { destruct HC as [->|[k [-> HF]]]; [auto|]. rewrite Nat2Z.id. clear -HF. induction HF; simpl; auto. now rewrite IHHF, H. }
    rewrite KS, map_length, Z.eqb_refl. cbn -[lgroups dec number mk_multi Z.of_nat]. rewrite K'. cbn [bind]. now apply named_same.
Qed.
Lemma leaf_back I t : plain_tf t -> comes_back I (SvTf t) (tf_load1 (tf_class t)) t.
Proof. intros H. destruct (plain_back t H) as [g [W L]]. eapply comes_back_w; eauto. Qed.

(* ---- what does not come back ---------------------------------------------------------------------------------------------- *)
Lemma scale1_back I x nm : keeps_name nm -> x <> 0%R ->
  comes_back I (SvTf (TScale (Vc [x]) (Some 1) nm)) (tf_load1 KScale) (TScale (Sc x) (Some 1) nm).
Proof.
  intros HN HX. eapply comes_back_w; [do 2 eexists; split; reflexivity|]. cbn. rewrite str_name_str by auto.
  unfold mk_scale, coef_nz, isnz. destruct (Req_EM_T x 0); [congruence|]. reflexivity.
Qed.
Lemma none_back I ref : comes_back I (SvTf (TShift ref (Some "None"))) (tf_load1 KShift) (TShift ref None).
Proof. eapply comes_back_w; [do 2 eexists; split; reflexivity|]. reflexivity. Qed.
Lemma pipe_none_back I l : Forall plain_tf l -> dims_agree l ->
  comes_back I (SvTf (TPipe l None)) (pipe_load (map tf_class l)) (TPipe l (Some "None")).
Proof. intros H1 H2. exact (pipe_back I l "None" H1 H2). Qed.
Lemma half_scaled I s : ss_scaling s <> None -> ss_scale s <> None -> ss_shift s = None -> cannot_be_saved I (SvTf (TSS s)).
Proof.
  intros H1 H2 H3. destruct s as [cent sc byrow nm n mean scl sh]; simpl in *. subst sh. destruct sc as [sc|]; [|congruence]. destruct scl as [c|]; [|congruence].
  destruct (wexecs (events_of I (SvTf (TSS {| ss_cent := cent; ss_scaling := Some sc; ss_byrow := byrow; ss_name := nm; ss_n := n; ss_mean := mean; ss_scale := Some c; ss_shift := None |}))) None ([], [])) as [[g s] k] eqn:E.
  eapply not_saved_from; [exact E|]. intros ->. revert E.
  destruct cent, mean, byrow, c; simpl; discriminate.
Qed.
Lemma nested_not I l nm' nm : Forall plain_tf l -> dims_agree l ->
  cannot_be_loaded I (SvTf (TPipe [TPipe l nm'] nm)) (pipe_load [KPipe]) /\
  cannot_be_loaded I (SvTf (TMulti [TPipe l nm'])) (tmulti_load (Each [KPipe])).
Proof.
  intros HP HD. destruct (pipe_back I l (name_str nm') HP HD) as [S _]. destruct (S (fun _ => None) "x" eq_refl) as [f' E]. unfold save in E. apply save_done in E.
  destruct E as [a [m [E _]]]. 
  assert (W : writes (tf_events (TPipe l nm')) (Grp a m)) by (exists a, m; split; [reflexivity|exact E]). clear E.
  assert (F : Forall2 (fun x g => writes (tf_events x) g) [TPipe l nm'] [Grp a m]) by (constructor; [exact W|constructor]).
  split.
  - pose proof (egroups_writes (fun i => String.append "transformer_" (dec2 i)) tf_events [TPipe l nm'] (name_dec2 "transformer_") [Grp a m] 0 []
      [("meta", Dset [("name", AvS (name_str nm)); ("num_transformers", AvI 1)] (DV []))] F (fun j _ => eq_refl)) as E.
    eapply not_loaded_w; [do 2 eexists; split; [reflexivity|exact E]|]. reflexivity.
  - pose proof (egroups_writes (fun i => String.append "variable" (dec i)) tf_events [TPipe l nm'] (name_dec "variable") [Grp a m] 0 []
      [("num_variables", Dset [] (DZ [1%Z]))] F (fun j _ => eq_refl)) as E.
    eapply not_loaded_w; [do 2 eexists; split; [reflexivity|exact E]|]. reflexivity.
Qed.
