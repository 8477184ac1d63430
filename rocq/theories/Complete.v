(** * The specification is exact: every behaviour it allows can happen.

    Which of the calls that may throw do throw is decided by the environment (the
    oracle of the machine).  Every outcome of the value specification, including
    every exceptional one, is realised by some environment. *)

From stdpp Require Import base gmap list.
From Verif Require Import Lang Common Client Spec SpecRun Rep Effect RunLemmas Refine Headers Hist
  OpProps OpProps2.

Section complete.
Context {E : Env}.
Implicit Types s : store E.
Implicit Types O rs : list resp.

(** [pops O rs O']: the answers [rs] are taken from [O], leaving [O']; an exhausted
    environment answers "ok". *)
Inductive pops : list resp -> list resp -> list resp -> Prop :=
  | pops_nil O : pops O [] O
  | pops_pad rs O' : pops [] rs O' -> pops [] (RespOk 0 :: rs) O'
  | pops_cons r O rs O' : pops O rs O' -> pops (r :: O) (r :: rs) O'.

Definition resp_ans (r : resp) : option exn :=
  match r with RespOk _ => None | RespFail e => Some e end.

Lemma pops_app O rs1 O1 rs2 O2 : pops O rs1 O1 -> pops O1 rs2 O2 -> pops O (rs1 ++ rs2) O2.
Proof. induction 1; simpl; [done|intros; constructor; auto..]. Qed.

Lemma pop_pops s r s1 : pop s = (r, s1) -> pops (orc s) [r] (orc s1).
Proof.
  unfold pop. destruct (orc s) as [|r' O] eqn:Ho; intros; simplify_eq; simpl.
  - rewrite Ho. constructor. constructor.
  - constructor. constructor.
Qed.

Lemma pops_prefix O rs O' i r : pops O rs O' -> O !! i = Some r -> i < length rs -> rs !! i = Some r.
Proof.
  intros H. revert i. induction H as [O|rs O' H IH|r' O rs O' H IH]; intros i Hi Hl; simpl in *.
  - lia.
  - done.
  - destruct i as [|i]; [done|]. apply IH; [done|]. lia.
Qed.

Lemma set_orc_id s : set_orc (orc s) s = s.
Proof. by destruct s. Qed.

Ltac pure_step := exists [], []; split; [constructor|done].
Ltac log_step := eexists [], [_]; split; [constructor|done].

(** A primitive action consumes answers, logs what they were, and depends on nothing else of
    the environment. *)
Lemma exec_pops {R} (p : prim E R) s :
  match exec p s with
  | ROk r s' => exists rs evs, pops (orc s) rs (orc s') /\ trc s' = evs ++ trc s /\
      answers evs = resp_ans <$> rs /\
      forall O, exec p (set_orc (rs ++ O) s) = ROk r (set_orc O s')
  | _ => True
  end.
Proof.
  destruct s as [B W X O0 tr].
  destruct p as [a b|a bt l|a t l x|a t l|a t l|t l|t l x|w|w p|w|w a|w p a|w|t l|l p|l|l
                |r|r f|n t v|u|]; simpl.
  - destruct (pop _) as [[h|e] s1] eqn:Hp; pose proof (pop_pops _ _ _ Hp) as Hpp; simpl in *.
    + eexists [_], [_]. split; [exact Hpp|]. unfold pop in Hp; simpl in Hp.
      destruct O0; simplify_eq; simpl; done.
    + eexists [_], [_]. split; [exact Hpp|]. unfold pop in Hp; simpl in Hp.
      destruct O0; simplify_eq; simpl; done.
  - destruct (B !! l) as [b|] eqn:Hb; [|done].
    destruct (negb _) eqn:H1; [done|]. destruct (negb (_ =? _)) eqn:H2; [done|].
    destruct (b_obj b) eqn:Ho; try done.
    log_step.
  - destruct (B !! l) as [b|] eqn:Hb; [|done].
    destruct (negb _) eqn:H1; [done|].
    destruct (b_obj b) eqn:Ho; try done.
    assert (Hcv : forall O, cons_vals a t x (set_orc O (mkS B W X O0 tr)) = cons_vals a t x (mkS B W X O0 tr)).
    { intros O. by destruct x as [c|c []]. }
    destruct (cons_vals a t x _) as [u|[[v v1] v2]] eqn:Hc; [done|].
    destruct (pop _) as [[h|e] s1] eqn:Hp; pose proof (pop_pops _ _ _ Hp) as Hpp; simpl in *.
    + exists [RespOk h], [EvCons a t l x]. split; [|split; [|split; [reflexivity|]]].
      * destruct x as [c|[] []]; simpl; exact Hpp.
      * unfold pop in Hp; simpl in Hp. destruct O0; simplify_eq; by destruct x as [c|[] []].
      * intros O. simpl. rewrite Hcv. unfold pop in Hp; simpl in Hp.
        destruct O0; simplify_eq; by destruct x as [c|[] []].
    + exists [RespFail e], [EvConsFail a t l x e]. split; [|split; [|split; [reflexivity|]]].
      * destruct x as [c|[] []]; simpl; exact Hpp.
      * unfold pop in Hp; simpl in Hp. destruct O0; simplify_eq; by destruct x as [c|[] []].
      * intros O. simpl. rewrite Hcv. unfold pop in Hp; simpl in Hp.
        destruct O0; simplify_eq; by destruct x as [c|[] []].
  - destruct (B !! l) as [b|] eqn:Hb; [|done]. destruct (b_obj b) as [|t' v|] eqn:Ho; try done.
    case_bool_decide; [|done].
    log_step.
  - destruct (B !! l) as [b|] eqn:Hb; [|done]. destruct (b_obj b) as [|t' v|] eqn:Ho; try done.
    case_bool_decide; [|done].
    log_step.
  - destruct (B !! l) as [b|] eqn:Hb; [|done]. destruct (b_obj b) as [|t' v|] eqn:Ho; try done.
    case_bool_decide; [|done]. pure_step.
  - unfold deref. simpl. destruct (B !! l) as [b|] eqn:Hb; [|done].
    destruct (b_obj b) as [|t0 v0|] eqn:Ho; try done.
    case_bool_decide; [|done]. simpl.
    assert (Hcv : forall O, asgn_vals l t0 v0 x (set_orc O (mkS B W X O0 tr)) = asgn_vals l t0 v0 x (mkS B W X O0 tr)).
    { intros O. by destruct x as [c|c []]. }
    destruct (asgn_vals l t0 v0 x _) as [u|[[d v] [df vf]]] eqn:Hc; [done|].
    destruct (pop _) as [[h|e] s1] eqn:Hp; pose proof (pop_pops _ _ _ Hp) as Hpp; simpl in *.
    + exists [RespOk h], [EvAsgn t l x]. split; [|split; [|split; [reflexivity|]]].
      * destruct x as [c|[] []]; simpl; exact Hpp.
      * unfold pop in Hp; simpl in Hp. destruct O0; simplify_eq; by destruct x as [c|[] []].
      * intros O. simpl. rewrite Hcv. unfold pop in Hp; simpl in Hp.
        destruct O0; simplify_eq; by destruct x as [c|[] []].
    + exists [RespFail e], [EvAsgnFail t l x e]. split; [|split; [|split; [reflexivity|]]].
      * destruct x as [c|[] []]; simpl; exact Hpp.
      * unfold pop in Hp; simpl in Hp. destruct O0; simplify_eq; by destruct x as [c|[] []].
      * intros O. simpl. rewrite Hcv. unfold pop in Hp; simpl in Hp.
        destruct O0; simplify_eq; by destruct x as [c|[] []].
  - destruct (W !! w) as [c|]; [|done]. destruct (w_p c); [done|pure_step..].
  - destruct (W !! w) as [c|]; [|done]. pure_step.
  - destruct (W !! w) as [c|]; [|done]. pure_step.
  - destruct (W !! w) as [c|]; [|done]. pure_step.
  - destruct (W !! w) as [c|]; [done|]. pure_step.
  - destruct (W !! w) as [c|]; [|done]. pure_step.
  - destruct (B !! l) as [b|]; [|done]. destruct (b_hdr b), (b_obj b); try done.
    case_bool_decide; [|done]. pure_step.
  - destruct (B !! l) as [b|]; [|done]. destruct (b_hdr b); [done|]. pure_step.
  - destruct (B !! l) as [b|]; [|done]. destruct (b_hdr b) as [|t [q|]]; try done. pure_step.
  - destruct (B !! l) as [b|]; [|done]. destruct (b_hdr b) as [|t q]; try done. pure_step.
  - destruct r as [l|n]; unfold deref; simpl.
    + destruct (B !! l) as [b|]; [|done]. destruct (b_obj b); try done. pure_step.
    + destruct (X !! n) as [o|]; [|done]. pure_step.
  - destruct r as [l|n]; unfold deref; simpl.
    + destruct (B !! l) as [b|]; [|done]. destruct (b_obj b); try done. pure_step.
    + destruct (X !! n) as [[]|]; [|done]. pure_step.
  - pure_step.
  - done.
  - done.
Qed.

Lemma run_pops {X} (p : prog E X) s :
  match run p s with
  | ORet x s' => exists rs evs, pops (orc s) rs (orc s') /\ trc s' = evs ++ trc s /\
      answers evs = resp_ans <$> rs /\
      forall O, run p (set_orc (rs ++ O) s) = ORet x (set_orc O s')
  | OThrow e s' => exists rs evs, pops (orc s) rs (orc s') /\ trc s' = evs ++ trc s /\
      answers evs = resp_ans <$> rs /\
      forall O, run p (set_orc (rs ++ O) s) = OThrow e (set_orc O s')
  | _ => True
  end.
Proof.
  revert s. induction p as [x|e|R a f IH]; intros s; simpl.
  - exists [], []. split; [constructor|]. done.
  - exists [], []. split; [constructor|]. done.
  - pose proof (exec_pops a s) as Ha. destruct (exec a s) as [r s1|u|]; [|done|done].
    destruct Ha as (rs1 & evs1 & Hp1 & Ht1 & Ha1 & Hr1). specialize (IH r s1).
    destruct (run (f r) s1) as [x s'|e s'|u|]; [| |done|done].
    + destruct IH as (rs2 & evs2 & Hp2 & Ht2 & Ha2 & Hr2).
      exists (rs1 ++ rs2), (evs2 ++ evs1). split; [by eapply pops_app|].
      split; [by rewrite Ht2, Ht1, app_assoc|].
      split; [by rewrite answers_app, fmap_app, Ha1, Ha2|].
      intros O. rewrite <- app_assoc, Hr1. apply Hr2.
    + destruct IH as (rs2 & evs2 & Hp2 & Ht2 & Ha2 & Hr2).
      exists (rs1 ++ rs2), (evs2 ++ evs1). split; [by eapply pops_app|].
      split; [by rewrite Ht2, Ht1, app_assoc|].
      split; [by rewrite answers_app, fmap_app, Ha1, Ha2|].
      intros O. rewrite <- app_assoc, Hr1. apply Hr2.
Qed.

Lemma set_orc_inv k s O : Inv k s -> Inv k (set_orc O s).
Proof. done. Qed.
Lemma set_orc_abs s O : abs (set_orc O s) = abs s.
Proof. done. Qed.

(** One operation, normal return: if nothing throws. *)
Lemma op_returns (HA : AllocReq E) h s (o : op E) res :
  Inv (header_cls h) s -> pre (header_cfg h) o (abs s) = true -> adm h o (abs s) = true ->
  step (header_cfg h) o (abs s) = Some res -> (forall e, RespFail e ∉ orc s) ->
  exists s', run (interp (header_impl h) o) s = ORet (r_obs res) s' /\ abs s' = r_ok res.
Proof.
  intros HI Hpre Hadm Hres Hno.
  destruct (header_implements HA h s (view s) o HI Hpre Hadm) as (r & Hr & Hm).
  destruct (veff_refines (header_cls h) (c_cc (header_cfg h)) (c_ca (header_cfg h)) HA o (view s) (exts s) r) as (res' & Hs' & Hag).
  { by destruct h. } { done. }
  assert (Heq : Some res' = Some res) by (rewrite <- Hs', <- Hres; by destruct h).
  injection Heq as ->.
  destruct r as [ob ω X evs|e ω X evs|]; simpl in Hm.
  - destruct Hm as (s' & -> & HR & HX & _). destruct Hag as (H1 & -> & _).
    exists s'. split; [done|]. apply rep_inv in HR as [_ Hv]. unfold abs. by rewrite Hv, HX.
  - destruct Hm as (s' & _ & _ & _ & _ & Hin). by apply Hno in Hin.
  - destruct Hm as [_ [e Hin]]. by apply Hno in Hin.
Qed.

(** One operation, exceptional outcome number [i]: if its call number [i + 1] throws. *)
Lemma op_throws (HA : AllocReq E) h s (o : op E) res i σ' e :
  Inv (header_cls h) s -> pre (header_cfg h) o (abs s) = true -> adm h o (abs s) = true ->
  step (header_cfg h) o (abs s) = Some res -> r_exn res !! i = Some σ' ->
  exists s', run (interp (header_impl h) o) (set_orc (replicate i (RespOk 0) ++ [RespFail e]) s) =
    OThrow e s' /\ abs s' = σ'.
Proof.
  intros HI Hpre Hadm Hres Hi. set (O := replicate i (RespOk 0) ++ [RespFail e]).
  assert (Hoi : O !! i = Some (RespFail e)).
  { unfold O. rewrite lookup_app_r by (by rewrite replicate_length). by rewrite replicate_length, Nat.sub_diag. }
  assert (Hoj : forall j, j < i -> O !! j = Some (RespOk 0)).
  { intros j Hj. unfold O. rewrite lookup_app_l by (by rewrite replicate_length). by apply lookup_replicate_2. }
  destruct (header_implements HA h (set_orc O s) (view s) o HI Hpre Hadm) as (r & Hr & Hm).
  destruct (veff_refines (header_cls h) (c_cc (header_cfg h)) (c_ca (header_cfg h)) HA o (view s) (exts s) r) as (res' & Hs' & Hag).
  { by destruct h. } { done. }
  assert (Heq : Some res' = Some res) by (rewrite <- Hs', <- Hres; by destruct h).
  injection Heq as ->.
  pose proof (run_pops (interp (header_impl h) o) (set_orc O s)) as Hpops.
  assert (Htr : forall (evs1 evs2 : list (event E)) tr, evs1 ++ tr = evs2 ++ tr -> evs1 = evs2).
  { intros * H. by apply app_inv_tail in H. }
  destruct r as [ob ω X evs|e' ω X evs|]; simpl in Hm.
  - exfalso. destruct Hm as (s' & Hrun & _ & _ & Ht). rewrite Hrun in Hpops.
    destruct Hpops as (rs & evs' & Hp & Ht' & Ha & _). simpl in *. rewrite Ht in Ht'. apply Htr in Ht' as <-.
    destruct Hag as (_ & _ & n & Hn & Hlen). rewrite Hn in Ha.
    apply lookup_lt_Some in Hi as Hlt.
    assert (Hl : length rs = n). { rewrite <- (fmap_length resp_ans rs), <- Ha. apply replicate_length. }
    eapply (pops_prefix _ _ _ i) in Hp; [|exact Hoi|lia].
    assert (Hc : (resp_ans <$> rs) !! i = Some None). { rewrite <- Ha. apply lookup_replicate_2. lia. }
    by rewrite list_lookup_fmap, Hp in Hc.
  - destruct Hm as (s' & Hrun & HR & HX & Ht & Hin). rewrite Hrun in Hpops.
    destruct Hpops as (rs & evs' & Hp & Ht' & Ha & _). simpl in *. rewrite Ht in Ht'. apply Htr in Ht' as <-.
    destruct Hag as (j & Hj & Hlook). rewrite Hj in Ha.
    assert (Hl : length rs = S j).
    { rewrite <- (fmap_length resp_ans rs), <- Ha, app_length, replicate_length. simpl. lia. }
    assert (Hrj : (resp_ans <$> rs) !! j = Some (Some e')).
    { rewrite <- Ha. rewrite lookup_app_r by (by rewrite replicate_length).
      by rewrite replicate_length, Nat.sub_diag. }
    assert (Hrk : forall m, m < j -> (resp_ans <$> rs) !! m = Some None).
    { intros m Hmj. rewrite <- Ha. rewrite lookup_app_l by (by rewrite replicate_length).
      by apply lookup_replicate_2. }
    destruct (lt_eq_lt_dec i j) as [[Hlt| ->]|Hlt].
    + exfalso. specialize (Hrk i Hlt). rewrite list_lookup_fmap in Hrk.
      eapply (pops_prefix _ _ _ i) in Hp; [|exact Hoi|lia]. by rewrite Hp in Hrk.
    + eapply (pops_prefix _ _ _ j) in Hp; [|exact Hoi|lia].
      rewrite list_lookup_fmap, Hp in Hrj. simpl in Hrj. simplify_eq.
      exists s'. split; [done|]. apply rep_inv in HR as [_ Hv]. unfold abs. rewrite Hv. congruence.
    + exfalso. eapply (pops_prefix _ _ _ j) in Hp; [|by apply Hoj|lia].
      by rewrite list_lookup_fmap, Hp in Hrj.
  - destruct Hag as [_ Hex]. by rewrite Hex in Hi.
Qed.

(** All client programs: what the specification allows can be made to happen. *)
Theorem client_complete (HA : AllocReq E) h (c : client E) s outs σ' :
  Inv (header_cls h) s -> safe_with (header_cfg h) (adm h) c (abs s) ->
  spec_run (header_cfg h) c (abs s) outs σ' ->
  exists O s', run_client (header_impl h) c (set_orc O s) = HOk outs s' /\ abs s' = σ'.
Proof.
  intros HI Hsafe Hrun. remember (abs s) as σ eqn:Hσ. revert s HI Hσ.
  induction Hrun as [σ|o next σ res outs σ' Hres Hrun IH|o next σ res e σ1 outs σ' Hres Hin Hrun IH];
    intros s HI Hσ.
  - exists [], (set_orc [] s). done.
  - destruct Hsafe as (Hpre & Hadm & Hnext). destruct (Hnext res Hres) as [Hok _]. subst σ.
    destruct (op_returns HA h (set_orc [] s) o res) as (s1 & Hr1 & Ha1); try done.
    { intros e H. by apply elem_of_nil in H. }
    pose proof (op_correct HA _ _ _ (set_orc [] s) o (header_implements HA h) HI Hpre Hadm) as (res' & _ & Hc).
    rewrite Hr1 in Hc. destruct Hc as (HI1 & _).
    pose proof (run_pops (interp (header_impl h) o) (set_orc [] s)) as Hp. rewrite Hr1 in Hp.
    destruct Hp as (rs & evs & _ & _ & _ & Hp).
    destruct (IH Hok s1 HI1 (eq_sym Ha1)) as (O & s' & Hr2 & Ha2).
    exists (rs ++ O), s'. split; [|done]. simpl.
    change (set_orc (rs ++ O) s) with (set_orc (rs ++ O) (set_orc [] s)). rewrite Hp, Hr2. done.
  - destruct Hsafe as (Hpre & Hadm & Hnext). destruct (Hnext res Hres) as [_ Hex]. subst σ.
    apply elem_of_list_lookup in Hin as Hi. destruct Hi as [i Hi].
    destruct (op_throws HA h s o res i σ1 e HI Hpre Hadm Hres Hi) as (s1 & Hr1 & Ha1).
    set (O1 := replicate i (RespOk 0) ++ [RespFail e]) in *.
    pose proof (op_correct HA _ _ _ (set_orc O1 s) o (header_implements HA h) HI Hpre Hadm) as (res' & _ & Hc).
    rewrite Hr1 in Hc. destruct Hc as (HI1 & _).
    pose proof (run_pops (interp (header_impl h) o) (set_orc O1 s)) as Hp. rewrite Hr1 in Hp.
    destruct Hp as (rs & evs & _ & _ & _ & Hp).
    destruct (IH (Hex e σ1 Hin) s1 HI1 (eq_sym Ha1)) as (O & s' & Hr2 & Ha2).
    exists (rs ++ O), s'. split; [|done]. simpl.
    change (set_orc (rs ++ O) s) with (set_orc (rs ++ O) (set_orc O1 s)). rewrite Hp, Hr2. done.
Qed.

(** Likewise for termination. *)
Lemma op_terminates (HA : AllocReq E) h s (o : op E) e :
  Inv (header_cls h) s -> pre (header_cfg h) o (abs s) = true -> may_terminate o (abs s) = true ->
  run (interp (header_impl h) o) (set_orc [RespFail e] s) = OTerm.
Proof.
  intros HI Hpre Hmt. destruct o as [| | | | | | | | | | | | | |x y| | | | | | |]; try done.
  simpl in Hpre, Hmt.
  apply andb_true_iff in Hpre as [Hx Hy].
  apply andb_true_iff in Hmt as [Hmt Hne]. apply andb_true_iff in Hmt as [Hmt Hpocma].
  apply andb_true_iff in Hmt as [Hxy Hen].
  apply negb_true_iff, bool_decide_eq_false in Hxy.
  unfold live in Hx. apply bool_decide_eq_true in Hx as [[ox' ax] Hx]. rewrite sv_abs in Hx.
  destruct (view s !! x) as [[ox ax']|] eqn:Hvx; [|done].
  unfold engaged in Hen. rewrite sv_abs in Hen.
  destruct (view s !! y) as [[[[[l t] v]|] ay]|] eqn:Hvy; [|done..].
  apply negb_true_iff in Hne. unfold equal_allocs in Hne. rewrite !sv_abs, Hvx, Hvy in Hne. simpl in Hne.
  eapply does_terminate; eauto.
Qed.

Theorem client_term_complete (HA : AllocReq E) h (c : client E) s :
  Inv (header_cls h) s -> safe_with (header_cfg h) (adm h) c (abs s) ->
  spec_term (header_cfg h) c (abs s) ->
  exists O, run_client (header_impl h) c (set_orc O s) = HTerm.
Proof.
  intros HI Hsafe Hrun. remember (abs s) as σ eqn:Hσ. revert s HI Hσ.
  induction Hrun as [o next σ Hmt|o next σ res Hres Hrun IH|o next σ res e σ1 Hres Hin Hrun IH];
    intros s HI Hσ.
  - destruct Hsafe as (Hpre & _). subst σ. exists [RespFail 0]. simpl.
    by rewrite (op_terminates HA h s o 0 HI Hpre Hmt).
  - destruct Hsafe as (Hpre & Hadm & Hnext). destruct (Hnext res Hres) as [Hok _]. subst σ.
    destruct (op_returns HA h (set_orc [] s) o res) as (s1 & Hr1 & Ha1); try done.
    { intros e H. by apply elem_of_nil in H. }
    pose proof (op_correct HA _ _ _ (set_orc [] s) o (header_implements HA h) HI Hpre Hadm) as (res' & _ & Hc).
    rewrite Hr1 in Hc. destruct Hc as (HI1 & _).
    pose proof (run_pops (interp (header_impl h) o) (set_orc [] s)) as Hp. rewrite Hr1 in Hp.
    destruct Hp as (rs & evs & _ & _ & _ & Hp).
    destruct (IH Hok s1 HI1 (eq_sym Ha1)) as (O & Hr2).
    exists (rs ++ O). simpl.
    change (set_orc (rs ++ O) s) with (set_orc (rs ++ O) (set_orc [] s)). rewrite Hp, Hr2. done.
  - destruct Hsafe as (Hpre & Hadm & Hnext). destruct (Hnext res Hres) as [_ Hex]. subst σ.
    apply elem_of_list_lookup in Hin as Hi. destruct Hi as [i Hi].
    destruct (op_throws HA h s o res i σ1 e HI Hpre Hadm Hres Hi) as (s1 & Hr1 & Ha1).
    set (O1 := replicate i (RespOk 0) ++ [RespFail e]) in *.
    pose proof (op_correct HA _ _ _ (set_orc O1 s) o (header_implements HA h) HI Hpre Hadm) as (res' & _ & Hc).
    rewrite Hr1 in Hc. destruct Hc as (HI1 & _).
    pose proof (run_pops (interp (header_impl h) o) (set_orc O1 s)) as Hp. rewrite Hr1 in Hp.
    destruct Hp as (rs & evs & _ & _ & _ & Hp).
    destruct (IH (Hex e σ1 Hin) s1 HI1 (eq_sym Ha1)) as (O & Hr2).
    exists (rs ++ O). simpl.
    change (set_orc (rs ++ O) s) with (set_orc (rs ++ O) (set_orc O1 s)). rewrite Hp, Hr2. done.
Qed.

Theorem termination_exact (HA : AllocReq E) h (c : client E) X :
  safe_with (header_cfg h) (adm h) c (mkSpec ∅ X) ->
  (exists O, run_client (header_impl h) c (init X O) = HTerm) <-> spec_term (header_cfg h) c (mkSpec ∅ X).
Proof.
  intros Hsafe. split.
  - intros (O & Hrun).
    pose proof (client_correct HA _ _ _ c (init X O) (header_implements HA h) (init_inv _ _ _)) as H.
    rewrite Hrun, init_abs in H. by apply H.
  - intros Hrun. destruct (client_term_complete HA h c (init X [])) as (O & H1).
    + apply init_inv.
    + by rewrite init_abs.
    + by rewrite init_abs.
    + exists O. done.
Qed.

(** If the environment never throws, a program behaves exactly like the specification's
    normal returns. *)
Fixpoint spec_exec (F : cfg) (c : client E) (σ : spec E) : option (list (obs E) * spec E) :=
  match c with
  | CDone => Some ([], σ)
  | CDo o next =>
      match step F o σ with
      | None => None
      | Some res =>
          match spec_exec F (next (inl (r_obs res))) (r_ok res) with
          | Some (outs, σ') => Some (r_obs res :: outs, σ')
          | None => None
          end
      end
  end.

Lemma pops_incl O rs O' r : pops O rs O' -> r ∈ O' -> r ∈ O.
Proof. induction 1; intros; [done|auto|]. apply elem_of_cons. auto. Qed.

Theorem client_nothrow (HA : AllocReq E) h (c : client E) s :
  Inv (header_cls h) s -> safe_with (header_cfg h) (adm h) c (abs s) ->
  (forall e, RespFail e ∉ orc s) ->
  exists outs s', run_client (header_impl h) c s = HOk (inl <$> outs) s' /\
    spec_exec (header_cfg h) c (abs s) = Some (outs, abs s').
Proof.
  revert s. induction c as [|o next IH]; intros s HI Hsafe Hno; simpl.
  { by exists [], s. }
  destruct Hsafe as (Hpre & Hadm & Hnext).
  destruct (step_total (header_cfg h) o (abs s) Hpre) as [res Hres]. rewrite Hres.
  destruct (Hnext res Hres) as [Hok _].
  destruct (op_returns HA h s o res) as (s1 & Hr1 & Ha1); try done. rewrite Hr1.
  pose proof (op_correct HA _ _ _ s o (header_implements HA h) HI Hpre Hadm) as (res' & _ & Hc).
  rewrite Hr1 in Hc. destruct Hc as (HI1 & _).
  pose proof (run_pops (interp (header_impl h) o) s) as Hp. rewrite Hr1 in Hp.
  destruct Hp as (rs & evs & Hp & _).
  destruct (IH (inl (r_obs res)) s1) as (outs & s' & Hr2 & Hs2); [done|by rewrite Ha1| |].
  { intros e He. eapply Hno, pops_incl; eauto. }
  rewrite Hr2. exists (r_obs res :: outs), s'. split; [done|]. by rewrite <- Ha1, Hs2.
Qed.

(** Behaviours of a program from the initial state = behaviours of the specification. *)
Theorem behaviours_exact (HA : AllocReq E) h (c : client E) X outs σ' :
  safe_with (header_cfg h) (adm h) c (mkSpec ∅ X) ->
  (exists O s', run_client (header_impl h) c (init X O) = HOk outs s' /\ abs s' = σ') <->
  spec_run (header_cfg h) c (mkSpec ∅ X) outs σ'.
Proof.
  intros Hsafe. split.
  - intros (O & s' & Hrun & <-).
    pose proof (client_correct HA _ _ _ c (init X O) (header_implements HA h) (init_inv _ _ _)) as H.
    rewrite Hrun, init_abs in H. by apply H.
  - intros Hrun. destruct (client_complete HA h c (init X []) outs σ') as (O & s' & H1 & H2).
    + apply init_inv.
    + by rewrite init_abs.
    + by rewrite init_abs.
    + exists O, s'. done.
Qed.

End complete.
