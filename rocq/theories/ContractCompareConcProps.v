(** * Threads that compare and hash wrappers: proofs. *)

From stdpp Require Import base gmap list relations functions.
From Verif Require Import Lang Common Client Spec Rep RunLemmas Headers Hist Draft Compare Tree TreeProps Conc ConcStatic ConcExec ConcProps.
From Verif Require Import Contract ContractProps ContractOps ContractClient ContractClientProps ContractTidy ContractTidyProps ContractUser ContractUserProps ConcPar ContractConc ContractConcProps ContractConcJoin ContractConcUser.
From Verif Require Import Arena ArenaProps ArenaHome ContractCompare ContractCompareProps ContractCompareConc.

(** ** What the operators write *)
Section quiet.
Context {E : Env} (rob : gset loc) (own : wl -> Prop) (Hmem : forall l i, l ∉ rob -> own (WMem l i)).
Notation nox := (fun _ : nat => False).
Notation any := (fun _ => True).
Notation safe p := (safe_w rob own nox p any).

Lemma safe_read l : safe (act (PReadObj (E := E) (RBlk l))).
Proof. by apply (safe_act _ _ _ _ any). Qed.
Lemma safe_then {X Y} (p : prog E X) (f : X -> prog E Y) : safe p -> (forall x, safe (f x)) -> safe (bind p f).
Proof. intros Hp Hf. eapply safe_bind; [exact Hp|]. by intros x _. Qed.
Lemma safe_star h (T : TP E) w : safe (i_star (hdr_impl h T) w).
Proof. destruct h; cbn; repeat split; intros [] ?; cbn; repeat split; intros; cbn; done. Qed.

Context (T : TP E) (C : Cmps E) (HQ : Quiet C) (h : header).
Notation I := (hdr_impl h T).

Lemma safe_rel r l q : safe (p_rel C r l q).
Proof. by apply (qu_rel _ HQ). Qed.
Lemma safe_synth l q : safe (p_synth C l q).
Proof.
  unfold p_synth. destruct (p_tw C) as [f|] eqn:Hf; [by eapply (qu_tw _ HQ)|].
  apply safe_then; [apply safe_rel|]. intros []; [done|]. apply safe_then; [apply safe_rel|]. by intros [].
Qed.
Ltac quiet := repeat first
  [ done | apply safe_rel | apply safe_synth | apply safe_h_valueless | apply safe_star | apply safe_read
  | by apply (qu_hash _ HQ) | apply safe_then | match goal with |- forall _, _ => intros ? end
  | match goal with |- safe_w _ _ _ (if ?b then _ else _) _ => destruct b end
  | match goal with |- safe_w _ _ _ (match ?b with _ => _ end) _ => destruct b end ].
Lemma safe_m20_tw x y : safe (m20_tw I C x y).
Proof. unfold m20_tw, por. quiet. Qed.
Lemma safe_m14 r x y : safe (m14 I C r x y).
Proof. unfold m14, por, pand, pnot. destruct r; quiet. Qed.
Lemma safe_w_rel g r x y : safe (w_rel I C g r x y).
Proof. destruct g; cbn [w_rel]; [apply safe_m14|]. unfold m20, m20_eq, pnot. destruct r; quiet; apply safe_m20_tw. Qed.
Lemma safe_w_rel_val g r x q : safe (w_rel_val I C g r x q).
Proof. destruct g; cbn [w_rel_val]; unfold m14_val, m20_val, m20_eq_val, m20_tw_val, pnot; [quiet|]. destruct r; quiet. Qed.
Lemma safe_val_w_rel g r q x : safe (val_w_rel I C g r q x).
Proof.
  destruct g; cbn [val_w_rel]; unfold val_m14; [quiet|]. unfold val_m20, m20_val, m20_eq_val, m20_tw_val, pnot. destruct (reversed r); quiet.
Qed.
Lemma safe_hash x : safe (m_hash I C x).
Proof. unfold m_hash. quiet. Qed.

(** Classes with members. *)
Context (Sh : Shape E) (deq : eV E -> eV E -> bool) (dtw : eV E -> eV E -> ordering) (dhash : eV E -> N) (mix : N -> N -> N).
Lemma safe_mem_eq l q i n : safe (mem_eq T h C l q i n).
Proof. revert i. induction n as [|n IH]; intros i; [done|]. cbn [mem_eq]. unfold pand. apply safe_then; [apply safe_w_rel|]. by intros []. Qed.
Lemma safe_mem_tw l q i n : safe (mem_tw T h C l q i n).
Proof. revert i. induction n as [|n IH]; intros i; [done|]. cbn [mem_tw]. apply safe_then; [apply safe_m20_tw|]. by intros []. Qed.
Lemma safe_mem_lt l q i n : safe (mem_lt T h C l q i n).
Proof.
  revert i. induction n as [|n IH]; intros i; [done|]. cbn [mem_lt]. apply safe_then; [apply safe_m14|]. intros []; [done|].
  apply safe_then; [apply safe_m14|]. by intros [].
Qed.
Lemma safe_mem_hash l i n acc : safe (mem_hash T h mix C l i n acc).
Proof. revert i acc. induction n as [|n IH]; intros i acc; [done|]. cbn [mem_hash]. apply safe_then; [apply safe_hash|]. intros x. apply IH. Qed.
Lemma safe_n_eq l q : safe (n_eq Sh T h deq C l q).
Proof. unfold n_eq. quiet. apply safe_mem_eq. Qed.
Lemma safe_n_tw l q : safe (n_tw Sh T h dtw C l q).
Proof. unfold n_tw. quiet. apply safe_mem_tw. Qed.
Lemma safe_n_lt l q : safe (n_lt Sh T h dtw C l q).
Proof. unfold n_lt. quiet. apply safe_mem_lt. Qed.
Lemma safe_n_hash l : safe (n_hash Sh T h dhash mix C l).
Proof. unfold n_hash. quiet. apply safe_mem_hash. Qed.
End quiet.

Lemma node_quiet {E : Env} (Sh : Shape E) (T : TP E) h deq dtw dhash mix C : Quiet C -> Quiet (node_cmps Sh T h deq dtw dhash mix C).
Proof.
  intros HQ. unfold node_cmps. destruct (gen_of h); split; cbn [p_rel p_tw p_hash].
  - intros rob own r l q Hm. unfold pnot. destruct r; try (apply safe_then; [|done]); first [by apply safe_n_eq|by apply safe_n_lt].
  - done.
  - intros rob own l Hm. by apply safe_n_hash.
  - intros rob own r l q Hm. unfold pnot. destruct r; try (apply safe_then; [|done]); first [by apply safe_n_eq|by apply safe_n_tw].
  - intros f rob own l q [= <-] Hm. by apply safe_n_tw.
  - intros rob own l Hm. by apply safe_n_hash.
Qed.
Lemma tower_quiet {E : Env} (Sh : Shape E) (T : TP E) h deq dtw dhash mix C n : Quiet C -> Quiet (tower_cmps Sh T h deq dtw dhash mix C n).
Proof. intros HQ. induction n as [|n IH]; [done|]. by apply node_quiet. Qed.
Lemma scoped_quiet {E : Env} (Sh : Shape E) (T : TP E) h deq dtw dhash mix s_arg C n : Quiet C -> Quiet (scoped_cmps Sh T h deq dtw dhash mix s_arg C n).
Proof. intros HQ. induction n as [|n IH]; [done|]. by apply node_quiet. Qed.
Lemma flat_quiet {E : Env} fr ft fh : Quiet (flat_cmps (E := E) fr ft fh).
Proof.
  assert (HG : forall X (r : X + exn) rob own, safe_w rob own (fun _ => False) (give (E := E) r) (fun _ => True)) by (by intros X []).
  split; cbn [p_rel p_tw p_hash flat_cmps].
  - intros rob own r l q Hm. do 2 (apply safe_then; [apply safe_read|intros ?]). apply HG.
  - intros f rob own l q Hf Hm. destruct ft as [f'|]; [|done]. injection Hf as <-.
    split; [done|]. intros x _. split; [done|]. intros y _. apply HG.
  - intros rob own l Hm. apply safe_then; [apply safe_read|intros ?]. apply HG.
Qed.

(** ** Threads *)
Section threads.
Context {E : Env} (T : TP E) (K : Cls E) (HO : Honest T K) (HT : Tidy T K) (HP : Polite T) (HL : Sealed K).
Context (C : Cmps E) (S : CmpSpec (c_val K)) (HS : Compares K C S) (HQ : Quiet C).
Context (HA : AllocReq E) (HCR : CopyReq E) (Hrefl : forall a, a_eqb E a a = true).
Context (M X : Type) (code : M -> loc -> prog E X) (sem : M -> ty -> c_val K -> X + exn -> c_val K -> Prop).
Context (const : M -> bool).
Context (HM : forall f, Method K (code f) (sem f)) (HMT : forall f, MethodT K (const f) (code f) (sem f)).
Context (hs : nat -> header) (o : nat -> option nat).
Notation vars := (gmap nat (option (ty * c_val K) * eA E)).
Notation held_by := (held_by K hs).
Notation cstep := (cstep K S M X sem hs).
Notation cpre := (cpre K M hs).
Notation cinterp := (cinterp T C M X code hs).
Notation cprog := (cprog T C M X code hs).
Notation cexec := (cexec K S M X sem hs).
Notation cconf := (cconf M const o).
Notation cok := (cok K S M X sem const hs o).
Implicit Types m : vars.
Implicit Types s : store E.
Implicit Types c : cclient (E := E) M X.
Notation since i := (fun (m : vars) FB FW s' m' => exists FB' FW', held_by s' m' FB' FW' /\
  forall z, o z <> Some i -> FB' z = FB z /\ FW' z = FW z /\ m' !! z = m !! z).

(** Comparisons leave everything as it was, and are tidy. *)
Lemma look_pure p m s FB FW : held_by s m FB FW -> cpre m p -> match p with COp _ => False | _ => True end ->
  pure (cinterp p) s (fun r => cstep m p r m).
Proof.
  intros H Hpre Hp. assert (HMo : mem_ok s) by (by eapply held_mem_ok).
  destruct p as [p|r x y|r x y|r y x|x]; [done|..]; cbn [ContractCompare.cinterp]; unfold bool_res; clear Hp.
  - destruct Hpre as (Hi & Hxy & [kx Hx] & [ky Hy]).
    assert (Ax := held_at _ _ _ _ _ _ _ _ H Hx). assert (Ay := held_at _ _ _ _ _ _ _ _ H Hy). rewrite Hxy in Ay.
    eapply pure_imp; [apply pure_map; by eapply (w_rel_ok T K HO C S HS _ Hi (gen_of (hs x)))|].
    intros res (b & Hb & ->). split; [done|]. by exists kx, ky, b.
  - destruct Hpre as (Hi & [kx Hx] & v & a & Hy).
    assert (Ax := held_at _ _ _ _ _ _ _ _ H Hx). assert (Ay := held_at _ _ _ _ _ _ _ _ H Hy).
    destruct (wr_own T K HO _ _ _ _ _ _ _ _ Ay) as (l & b & B1 & W1 & HB & HW & HB1 & HW1 & Hob & Hres & Hty & Hhdr & HTt).
    assert (Hl : run (i_star (hdr_impl (hs y) T) (WVar y)) s = ORet l s).
    { apply (star_run T _ _ l a (tT E) b); [|apply Hob|done]. apply (lookup_weaken (FW y)); [rewrite HW; by rewrite lookup_insert|apply H]. }
    eapply pure_imp; [apply pure_map; pstep; [exact Hl|]; by eapply (w_rel_val_ok T K HO C S HS _ Hi (gen_of (hs x)))|].
    intros res (b' & Hb & ->). split; [done|]. by exists kx, v, a, b'.
  - destruct Hpre as (Hi & [kx Hx] & v & a & Hy).
    assert (Ax := held_at _ _ _ _ _ _ _ _ H Hx). assert (Ay := held_at _ _ _ _ _ _ _ _ H Hy).
    destruct (wr_own T K HO _ _ _ _ _ _ _ _ Ay) as (l & b & B1 & W1 & HB & HW & HB1 & HW1 & Hob & Hres & Hty & Hhdr & HTt).
    assert (Hl : run (i_star (hdr_impl (hs y) T) (WVar y)) s = ORet l s).
    { apply (star_run T _ _ l a (tT E) b); [|apply Hob|done]. apply (lookup_weaken (FW y)); [rewrite HW; by rewrite lookup_insert|apply H]. }
    eapply pure_imp; [apply pure_map; pstep; [exact Hl|]; by eapply (val_w_rel_ok T K HO C S HS _ Hi (gen_of (hs x)))|].
    intros res (b' & Hb & ->). split; [done|]. by exists kx, v, a, b'.
  - destruct Hpre as (Hi & [kx Hx]). assert (Ax := held_at _ _ _ _ _ _ _ _ H Hx).
    eapply pure_imp; [apply pure_map; by eapply (hash_ok T K HO C S HS _ Hi)|].
    intros res (b & Hb & ->). split; [done|]. by exists kx, b.
Qed.

Lemma conf_cstep i p m s FB FW : held_by s m FB FW -> cpre m p -> cconf i p ->
  match run (cinterp p) s with
  | ORet r s' => exists m', cstep m p (inl r) m' /\ since i m FB FW s' m'
  | OThrow e s' => exists m', cstep m p (inr e) m' /\ since i m FB FW s' m'
  | OUB _ => False
  | OTerm => True
  end.
Proof.
  intros Hh Hpre Hconf. assert (Hp : match p with COp _ => False | _ => True end \/ ~ match p with COp _ => False | _ => True end) by (destruct p; tauto).
  destruct Hp as [Hp|Hp].
  - destruct (look_pure p m s FB FW Hh Hpre Hp) as [G _].
    destruct (run (cinterp p) s) as [r s'|e s'| |]; [| |done|done]; destruct G as [G Hs]; exists m; (split; [done|]);
      destruct (held_same K hs s s' m FB FW [] Hh Hs) as (FB' & FW' & Hh' & Hz); exists FB', FW'; (split; [done|]);
      intros z _; apply Hz; set_solver.
  - destruct p as [p|r x y|r x y|r y x|x]; [|by destruct Hp..]. cbn [ContractCompare.cinterp]. rewrite run_bind.
    assert (G := conf_step T K HO HT HP HL HA HCR Hrefl M X code sem const HM HMT hs o i p m s FB FW Hh Hpre Hconf).
    destruct (run (ginterp _ _ _ _ _ _) s) as [r s'|e s'| |]; [| |done|done]; destruct G as (m' & Hst & G); exists m'; (split; [|done]).
    + by exists (inl r).
    + by exists (inr e).
Qed.

Lemma cclient_since i c m s FB FW : held_by s m FB FW -> cok i c m ->
  match run (cprog c) s with
  | ORet rs s' => exists m', cexec c m rs m' /\ since i m FB FW s' m'
  | OTerm => True
  | _ => False
  end.
Proof.
  revert m s FB FW. induction c as [|p next IH]; intros m s FB FW Hh Hok; cbn [ContractCompare.cprog].
  - exists m. split; [done|]. by exists FB, FW.
  - destruct Hok as (Hpre & Hconf & Hnext). rewrite run_bind, run_catch, run_bind.
    assert (G := conf_cstep i p m s FB FW Hh Hpre Hconf).
    destruct (run (cinterp p) s) as [r s1|e s1| |]; [| |done|done]; cbn;
      destruct G as (m1 & Hst & FB1 & FW1 & Hh1 & Hz1); rewrite run_bind.
    + specialize (IH (inl r) m1 s1 FB1 FW1 Hh1 (Hnext _ _ Hst)).
      destruct (run (cprog _) s1) as [rs s2|e s2| |]; [|done..].
      destruct IH as (m2 & Hex & FB2 & FW2 & Hh2 & Hz2). exists m2. split; [by exists (inl r), rs, m1|].
      exists FB2, FW2. split; [done|]. intros z Hz. destruct (Hz1 z Hz) as (Q1 & Q2 & Q3), (Hz2 z Hz) as (R1 & R2 & R3). split_and!; congruence.
    + specialize (IH (inr e) m1 s1 FB1 FW1 Hh1 (Hnext _ _ Hst)).
      destruct (run (cprog _) s1) as [rs s2|e2 s2| |]; [|done..].
      destruct IH as (m2 & Hex & FB2 & FW2 & Hh2 & Hz2). exists m2. split; [by exists (inr e), rs, m1|].
      exists FB2, FW2. split; [done|]. intros z Hz. destruct (Hz1 z Hz) as (Q1 & Q2 & Q3), (Hz2 z Hz) as (R1 & R2 & R3). split_and!; congruence.
Qed.

Lemma safe_cinterp rob i p : cconf i p -> safe_w rob (own_of o rob i) (fun _ => False) (cinterp p) (fun _ => True).
Proof.
  intros Hc. assert (Hm : forall l j, l ∉ rob -> own_of o rob i (WMem l j)) by done.
  destruct p as [p|r x y|r x y|r y x|x]; cbn [ContractCompare.cinterp]; unfold bool_res.
  - apply safe_then; [|done]. by apply (safe_ginterp T K HP M X code sem const HMT hs o).
  - apply safe_then; [|done]. by apply safe_w_rel.
  - apply safe_then; [|done]. apply safe_then; [apply safe_star|]. intros q. by apply safe_w_rel_val.
  - apply safe_then; [|done]. apply safe_then; [apply safe_star|]. intros q. by apply safe_val_w_rel.
  - apply safe_then; [|done]. by apply safe_hash.
Qed.

Lemma cclient_mon rob i c m s FB FW : held_by s m FB FW -> fenced rob (own_of o rob i) s -> cok i c m ->
  mon rob (own_of o rob i) (fun _ => False) (cprog c) s.
Proof.
  revert m s FB FW. induction c as [|p next IH]; intros m s FB FW Hh Hf Hok; [done|].
  cbn [ContractCompare.cprog]. destruct Hok as (Hpre & Hconf & Hnext).
  assert (Hsafe := safe_cinterp rob i p Hconf).
  assert (Hop := fun q => conf_cstep i p m (set_orc q s) FB FW (held_by_orc K hs q _ _ _ _ Hh) Hpre Hconf).
  apply mon_bind.
  - eapply (mon_safe HCR _ _ _ _ (fun _ => True)); [done| |].
    + apply safe_catch; [|done]. eapply safe_bind; [exact Hsafe|]. by intros.
    + intros q u. rewrite run_catch, run_bind. specialize (Hop q). by destruct (run (cinterp p) (set_orc q s)).
  - intros q r s' Hr. rewrite run_catch, run_bind in Hr. specialize (Hop q).
    pose proof (run_fenced HCR _ _ _ _ _ _ (proj2 (fenced_orc _ _ q s) Hf) Hsafe) as Hf'.
    assert (mon rob (own_of o rob i) (fun _ => False) (cprog (next r)) s') as Hm.
    { destruct (run (cinterp p) (set_orc q s)) as [y s1|e s1|u|]; cbn in Hr; simplify_eq;
        destruct Hop as (m1 & Hst & FB1 & FW1 & Hh1 & _); eapply IH; eauto. }
    apply mon_bind; [done|]. done.
Qed.

Lemma tidy_cinterp p m s FB FW : held_by s m FB FW -> cpre m p -> tidy (cinterp p) s.
Proof.
  intros Hh Hpre. destruct p as [p|r x y|r x y|r y x|x]; [|by destruct (look_pure _ m s FB FW Hh Hpre I)..].
  cbn [ContractCompare.cinterp]. apply tidy_bind; [|by intros].
  by eapply (tidy_ginterp T K HO HT HA Hrefl M X code sem const HMT hs).
Qed.
Lemma cclient_tidy i c m s FB FW : held_by s m FB FW -> cok i c m -> tidy (cprog c) s.
Proof.
  revert m s FB FW. induction c as [|p next IH]; intros m s FB FW Hh Hok; [done|].
  cbn [ContractCompare.cprog]. destruct Hok as (Hpre & Hconf & Hnext).
  assert (Hop := conf_cstep i p m s FB FW Hh Hpre Hconf).
  apply tidy_bind.
  - apply tidy_catch; [|by intros]. apply tidy_bind; [by eapply tidy_cinterp|by intros].
  - intros r s' Hr. rewrite run_catch, run_bind in Hr.
    apply tidy_bind; [|by intros].
    destruct (run (cinterp p) s) as [y s1|e s1|u|]; cbn in Hr; simplify_eq;
      destruct Hop as (m1 & Hst & FB1 & FW1 & Hh1 & _); eapply IH; eauto.
Qed.

(** ** All threads *)
Notation view_of := (view_of K o).
Context (s : store E) (m : vars) (FB : nat -> gmap loc (block E)) (FW : nat -> gmap wl (wrapper E)) (Hh : held_by s m FB FW).
Context (cs : list (cclient (E := E) M X)) (Hcs : cclients_ok K S M X sem const hs o m cs).
Notation ps := (cprog <$> cs).
Notation ex := (fun i z m' => exists c, cs !! i = Some c /\ cexec c (view_of i m) z m').

Lemma cclients_mon i p rob s0 FB0 FW0 : ps !! i = Some p -> held_by s0 (view_of i m) FB0 FW0 -> fenced rob (own_of o rob i) s0 ->
  mon rob (own_of o rob i) (fun _ => False) p s0.
Proof.
  rewrite list_lookup_fmap. destruct (cs !! i) as [c|] eqn:Hc; intros [= <-] Hs Hf.
  by eapply cclient_mon; [exact Hs|done|apply Hcs].
Qed.
Lemma cclients_tidy i p s0 FB0 FW0 : ps !! i = Some p -> held_by s0 (view_of i m) FB0 FW0 -> tidy p s0.
Proof.
  rewrite list_lookup_fmap. destruct (cs !! i) as [c|] eqn:Hc; intros [= <-] Hs.
  by eapply (cclient_tidy i); [exact Hs|apply Hcs].
Qed.
Lemma cclients_since i p s0 FB0 FW0 : ps !! i = Some p -> held_by s0 (view_of i m) FB0 FW0 ->
  match run p s0 with
  | ORet z s' => exists m', ex i z m' /\ exists FB' FW', held_by s' m' FB' FW' /\
      forall x, o x <> Some i -> FB' x = FB0 x /\ FW' x = FW0 x /\ m' !! x = view_of i m !! x
  | OTerm => True
  | _ => False
  end.
Proof.
  rewrite list_lookup_fmap. destruct (cs !! i) as [c|] eqn:Hc; intros [= <-] Hs.
  assert (G := cclient_since i c (view_of i m) s0 FB0 FW0 Hs (Hcs i c Hc)).
  destruct (run (cprog c) s0) as [z s'|e s'| |]; [|done..]. destruct G as (m' & Hex & G). exists m'. split; [by exists c|done].
Qed.
Lemma cstart_inv : conf_inv o (shared_blocks K o s m FB) ps (seen_by K o s m FB FW) s (cstart T C M X code hs s cs) (seen_by K o s m FB FW).
Proof.
  assert (G := any_inv T K HO HL hs o s m FB FW Hh ps cclients_mon cclients_tidy).
  unfold start_of in G. by rewrite <- list_fmap_compose in G.
Qed.
End threads.
