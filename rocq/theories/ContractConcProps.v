(** * Threads over values of any class that keeps its contract: proofs. *)

From stdpp Require Import base gmap list relations functions.
From Verif Require Import Lang Common Indirect20 Indirect14 Polymorphic20 Polymorphic14 Client Spec Rep RunLemmas Headers Hist Draft Tree TreeProps Conc ConcStatic ConcExec ConcProps.
From Verif Require Import Contract ContractProps ContractOps ContractMove ContractNode ContractClient ContractClientProps ContractTidy ContractTidyProps ConcPar ContractConc.

Section threads.
Context {E : Env} (T : TP E) (K : Cls E) (HO : Honest T K) (HT : Tidy T K) (HP : Polite T) (HL : Sealed K).
Context (HA : AllocReq E) (HCR : CopyReq E) (Hrefl : forall a, a_eqb E a a = true).
Context (M X : Type) (code : M -> loc -> prog E X) (sem : M -> ty -> c_val K -> X + exn -> c_val K -> Prop).
Context (const : M -> bool).
Context (HM : forall f, Method K (code f) (sem f)) (HMT : forall f, MethodT K (const f) (code f) (sem f)).
Context (hs : nat -> header) (o : nat -> option nat).
Notation A := (eA E).
Notation bmap := (gmap loc (block E)).
Notation wmap := (gmap wl (wrapper E)).
Notation wv := (option (ty * c_val K) * A)%type.
Notation vars := (gmap nat wv).
Notation held := (held K hs).
Notation held_by := (held_by K hs).
Notation part := (part K hs).
Notation gstep := (gstep K M X sem hs).
Notation gpre := (gpre K M hs).
Notation ginterp := (ginterp T M X code hs).
Notation gprog := (gprog T M X code hs).
Notation gexec := (gexec K M X sem hs).
Notation gconf := (gconf M const o).
Notation gok := (gok K M X sem const hs o).
Implicit Types m : vars.
Implicit Types s : store E.
Implicit Types c : gclient (E := E) M X.

Lemma held_by_orc q s m FB FW : held_by s m FB FW -> held_by (set_orc q s) m FB FW.
Proof. by intros [H1 H2 H3 H4 H5 H6 H7]. Qed.

(** ** One operation of thread [i] *)
Notation since i := (fun (m : vars) FB FW s' m' => exists FB' FW', held_by s' m' FB' FW' /\
  forall z, o z <> Some i -> FB' z = FB z /\ FW' z = FW z /\ m' !! z = m !! z).

Lemma conf_step i p m s FB FW : held_by s m FB FW -> gpre m p -> gconf i p ->
  match run (ginterp p) s with
  | ORet r s' => exists m', gstep m p (inl r) m' /\ since i m FB FW s' m'
  | OThrow e s' => exists m', gstep m p (inr e) m' /\ since i m FB FW s' m'
  | OUB _ => False
  | OTerm => True
  end.
Proof.
  intros Hh Hpre Hconf.
  assert (G := step_all T K HO HA Hrefl M X code sem HM hs p m s FB FW Hh Hpre).
  assert (Hgo : (forall z, z ∈ gwrites M p -> o z = Some i) ->
    match run (ginterp p) s with
    | ORet r s' => exists m', gstep m p (inl r) m' /\ since i m FB FW s' m'
    | OThrow e s' => exists m', gstep m p (inr e) m' /\ since i m FB FW s' m'
    | OUB _ => False
    | OTerm => True
    end).
  { intros Hw. destruct (run (ginterp p) s) as [r s'|e s'| |]; [| |done|done];
      destruct G as (m' & Hst & FB' & FW' & Hh' & Hz); exists m'; (split; [done|]); exists FB', FW'; (split; [done|]);
      intros z Hn; apply Hz; intros Hin; by apply Hn, Hw. }
  destruct p as [x a t c|x y|x a y|x y|x a y|x y|x y|x y|x|x f|x|x]; cbn [gconf] in Hconf; cbn [gwrites] in Hgo.
  all: try (apply Hgo; intros z; rewrite ?elem_of_cons, ?elem_of_nil; intuition (subst; done)).
  destruct Hconf as [Hx|[Hx Hf]]; [apply Hgo; intros z; rewrite elem_of_list_singleton; by intros ->|].
  clear Hgo. destruct Hpre as (t & v & a & Hmx).
  (* a const member function of a shared variable *)
  assert (Hax := held_at K hs _ _ _ _ _ _ Hh Hmx).
  destruct (wr_own T K HO _ _ _ _ _ _ _ _ Hax) as (l & b & B1 & W1 & HB & HW & HB1 & HW1 & Hob & Hres & Hty & Hhdr & HTT).
  assert (Hs : wraps s !! WVar x = Some (mkW (PLoc l) a)).
  { apply (lookup_weaken (FW x)); [rewrite HW; by rewrite lookup_insert|apply Hh]. }
  assert (Hen := held_enclosed T K HO hs _ _ _ _ x Hh). rewrite HB, HW in Hen. apply enclosed_in in Hen.
  assert (Hsm := mt_const _ _ _ _ (HMT f) Hf t l b v B1 W1 s (held_mem_ok T K HO hs _ _ _ _ Hh) Hob Hen).
  cbn [ContractClient.ginterp] in G |- *. unfold impl_of in *.
  rewrite run_bind, (star_run T _ _ l a t b) in G |- * by first [exact Hs|apply Hob|exact Hhdr]. rewrite run_bind in G |- *.
  assert (Hid : forall r m', gstep m (GCall x f) r m' -> m' = m).
  { intros r m' (t' & v' & a' & v2 & r' & H1 & H2 & _ & ->). rewrite Hmx in H1. simplify_eq.
    rewrite (mt_sem _ _ _ _ (HMT f) Hf _ _ _ _ H2). by apply insert_id. }
  destruct (run (code f l) s) as [r s'|e s'| |]; cbn in G |- *; [| |done|done];
    destruct G as (m' & Hst & _); exists m'; (split; [done|]);
    rewrite (Hid _ _ Hst);
    destruct (held_same K hs s s' m FB FW [] Hh Hsm) as (FB' & FW' & Hh' & Hz); exists FB', FW'; (split; [done|]);
    intros z _; apply Hz; set_solver.
Qed.

Lemma client_since i c m s FB FW : held_by s m FB FW -> gok i c m ->
  match run (gprog c) s with
  | ORet rs s' => exists m', gexec c m rs m' /\ since i m FB FW s' m'
  | OTerm => True
  | _ => False
  end.
Proof.
  revert m s FB FW. induction c as [|p next IH]; intros m s FB FW Hh Hok; cbn [ContractClient.gprog].
  - exists m. split; [done|]. by exists FB, FW.
  - destruct Hok as (Hpre & Hconf & Hnext). rewrite run_bind, run_catch, run_bind.
    assert (G := conf_step i p m s FB FW Hh Hpre Hconf).
    destruct (run (ginterp p) s) as [r s1|e s1| |]; [| |done|done]; cbn;
      destruct G as (m1 & Hst & FB1 & FW1 & Hh1 & Hz1); rewrite run_bind.
    + specialize (IH (inl r) m1 s1 FB1 FW1 Hh1 (Hnext _ _ Hst)).
      destruct (run (gprog _) s1) as [rs s2|e s2| |]; [|done..].
      destruct IH as (m2 & Hex & FB2 & FW2 & Hh2 & Hz2). exists m2. split; [by exists (inl r), rs, m1|].
      exists FB2, FW2. split; [done|]. intros z Hz. destruct (Hz1 z Hz) as (Q1 & Q2 & Q3), (Hz2 z Hz) as (R1 & R2 & R3). split_and!; congruence.
    + specialize (IH (inr e) m1 s1 FB1 FW1 Hh1 (Hnext _ _ Hst)).
      destruct (run (gprog _) s1) as [rs s2|e2 s2| |]; [|done..].
      destruct IH as (m2 & Hex & FB2 & FW2 & Hh2 & Hz2). exists m2. split; [by exists (inr e), rs, m1|].
      exists FB2, FW2. split; [done|]. intros z Hz. destruct (Hz1 z Hz) as (Q1 & Q2 & Q3), (Hz2 z Hz) as (R1 & R2 & R3). split_and!; congruence.
Qed.

(** ** What it writes *)
Section mon.
Context (rob : gset loc).
Notation own_of := (own_of o rob).
Notation nox := (fun _ : nat => False).
Notation any := (fun _ => True).

Lemma polite_here i : tp_confined rob (own_of i) nox T.
Proof. by apply HP. Qed.

Lemma safe_void own ownx (p : prog E unit) : safe_w rob own ownx p any -> safe_w rob own ownx (void X p) any.
Proof. intros Hp. eapply safe_bind; [exact Hp|]. by intros _ _. Qed.

Lemma safe_ginterp i p : gconf i p -> safe_w rob (own_of i) nox (ginterp p) any.
Proof.
  intros Hc. pose proof (polite_here i) as HTc.
  destruct p as [x a t c|x y|x a y|x y|x a y|x y|x y|x y|x|x f|x|x]; cbn [ContractConc.gconf] in Hc; cbn [ContractClient.ginterp]; unfold impl_of.
  - apply safe_void, safe_h_make; done.
  - apply safe_void, safe_h_copy; [done|apply Hc].
  - apply safe_void, safe_h_copy_a; [done|apply Hc].
  - apply safe_void, safe_h_move; [done|apply Hc..].
  - apply safe_void, safe_h_move_a; [done|apply Hc..].
  - apply safe_void, safe_h_casg; [done|apply Hc].
  - apply safe_void, safe_h_masg; [done|apply Hc..].
  - apply safe_void, safe_h_swap; apply Hc.
  - apply safe_void, safe_h_dtor; done.
  - eapply safe_bind; [apply safe_h_star|]. intros l Hl. cbn in Hl. eapply safe_bind; [apply (mt_polite _ _ _ _ (HMT f))|by intros].
    + done.
    + destruct Hc as [Hx|[_ Hf]]; [right; auto|by left].
  - eapply safe_bind; [apply safe_h_valueless|]. by intros.
  - eapply safe_bind; [apply safe_h_alloc|]. by intros.
Qed.

Lemma client_mon i c m s FB FW : held_by s m FB FW -> fenced rob (own_of i) s -> gok i c m ->
  mon rob (own_of i) nox (gprog c) s.
Proof.
  revert m s FB FW. induction c as [|p next IH]; intros m s FB FW Hh Hf Hok; [done|].
  cbn [ContractClient.gprog]. destruct Hok as (Hpre & Hconf & Hnext).
  assert (Hsafe := safe_ginterp i p Hconf).
  assert (Hop := fun q => conf_step i p m (set_orc q s) FB FW (held_by_orc q _ _ _ _ Hh) Hpre Hconf).
  apply mon_bind.
  - eapply (mon_safe HCR _ _ _ _ any); [done| |].
    + apply safe_catch; [|done]. eapply safe_bind; [exact Hsafe|]. by intros.
    + intros q u. rewrite run_catch, run_bind. specialize (Hop q). by destruct (run (ginterp p) (set_orc q s)).
  - intros q r s' Hr. rewrite run_catch, run_bind in Hr. specialize (Hop q).
    pose proof (run_fenced HCR _ _ _ _ _ _ (proj2 (fenced_orc _ _ q s) Hf) Hsafe) as Hf'.
    assert (mon rob (own_of i) nox (gprog (next r)) s') as Hm.
    { destruct (run (ginterp p) (set_orc q s)) as [y s1|e s1|u|]; cbn in Hr; simplify_eq;
        destruct Hop as (m1 & Hst & FB1 & FW1 & Hh1 & _); eapply IH; eauto. }
    apply mon_bind; [done|]. done.
Qed.
End mon.

(** ** It is tidy *)
Lemma tidy_void (p : prog E unit) s : tidy p s -> tidy (void X p) s.
Proof. intros Hp. apply tidy_bind; [done|]. by intros. Qed.

Lemma tidy_ginterp p m s FB FW : held_by s m FB FW -> gpre m p -> tidy (ginterp p) s.
Proof.
  intros H Hpre.
  assert (HMo := held_mem_ok T K HO hs _ _ _ _ H).
  assert (Hat := fun x k => held_at K hs s m FB FW x k H).
  assert (Hen := fun x => held_enclosed T K HO hs s m FB FW x H).
  destruct p as [x a t c|x y|x a y|x y|x a y|x y|x y|x y|x|x f|x|x]; cbn [ContractClient.gpre] in Hpre; cbn [ContractClient.ginterp]; unfold impl_of.
  - apply tidy_void, (tidy_make T K HO HT); [apply Hpre|done|done].
  - destruct Hpre as (_ & Hh & [k Hy]). specialize (Hat y k Hy). rewrite <- Hh in Hat.
    apply tidy_void. by eapply (tidy_copy T K HO HT).
  - destruct Hpre as (_ & Hh & [k Hy]). specialize (Hat y k Hy). rewrite <- Hh in Hat.
    apply tidy_void. by eapply (tidy_copya T K HO HT).
  - apply tidy_void. by apply (tidy_move T Hrefl).
  - destruct Hpre as (_ & Hh & k & Hy & _). specialize (Hat y k Hy). rewrite <- Hh in Hat.
    apply tidy_void. eapply (tidy_movea T K HO HT); [done|done| |done|apply Hen]. by intros l i.
  - destruct Hpre as (Hh & [kx Hx] & [ky Hy]). pose proof (Hat x kx Hx) as Hax. pose proof (Hat y ky Hy) as Hay. rewrite <- Hh in Hay.
    apply tidy_void. destruct (decide (x = y)) as [<-|Hxy].
    { destruct (hs x); cbn; unfold Indirect20.copy_assign, Indirect14.copy_assign, Polymorphic20.copy_assign, Polymorphic14.copy_assign;
        by rewrite decide_True. }
    eapply (tidy_casg T K HO HT); [done|apply Hen|done|done|by apply H|by apply H].
  - destruct Hpre as (Hh & [kx Hx] & [ky Hy]). pose proof (Hat x kx Hx) as Hax. pose proof (Hat y ky Hy) as Hay. rewrite <- Hh in Hay.
    apply tidy_void. destruct (decide (x = y)) as [<-|Hxy].
    { destruct (hs x); cbn; unfold Indirect20.move_assign, Indirect14.move_assign, Polymorphic20.move_assign, Polymorphic14.move_assign;
        rewrite decide_True by done; by apply tidy_noexcept. }
    eapply (tidy_masg T K HO HT HA); [done|done|done|by apply H|by apply H|apply Hen|apply Hen|]. by intros l i.
  - apply tidy_void. apply plain_tidy, plain_swap.
  - destruct Hpre as [k Hx]. apply tidy_void. eapply (tidy_dtor T K HO HT); [by apply Hat|apply Hen].
  - destruct Hpre as (t & v & a & Hx). specialize (Hat _ _ Hx).
    destruct (wr_own T K HO _ _ _ _ _ _ _ _ Hat) as (l & b & B1 & W1 & HB & HW & HB1 & HW1 & Hob & Hres & Hty & Hhdr & HTT).
    assert (Hs : wraps s !! WVar x = Some (mkW (PLoc l) a)).
    { apply (lookup_weaken (FW x)); [rewrite HW; by rewrite lookup_insert|apply H]. }
    specialize (Hen x). rewrite HB, HW in Hen. apply enclosed_in in Hen.
    apply tidy_bind; [apply plain_tidy; destruct (hs x); cbn; (split; [done|]); intros []; cbn; by repeat split|].
    intros l' s' R. rewrite (star_run T _ _ l a t b) in R by first [exact Hs|apply Hob|exact Hhdr]. simplify_eq.
    apply tidy_bind; [|by intros]. by eapply (mt_tidy _ _ _ _ (HMT f)).
  - apply tidy_bind; [apply plain_tidy; destruct (hs x); cbn; (split; [done|]); intros []; cbn; by repeat split|by intros].
  - apply tidy_bind; [apply plain_tidy; destruct (hs x); cbn; by repeat split|by intros].
Qed.

Lemma client_tidy i c m s FB FW : held_by s m FB FW -> gok i c m -> tidy (gprog c) s.
Proof.
  revert m s FB FW. induction c as [|p next IH]; intros m s FB FW Hh Hok; [done|].
  cbn [ContractClient.gprog]. destruct Hok as (Hpre & Hconf & Hnext).
  assert (Hop := conf_step i p m s FB FW Hh Hpre Hconf).
  apply tidy_bind.
  - apply tidy_catch; [|by intros]. apply tidy_bind; [by eapply tidy_ginterp|by intros].
  - intros r s' Hr. rewrite run_catch, run_bind in Hr.
    apply tidy_bind; [|by intros].
    destruct (run (ginterp p) s) as [y s1|e s1|u|]; cbn in Hr; simplify_eq;
      destruct Hop as (m1 & Hst & FB1 & FW1 & Hh1 & _); eapply IH; eauto.
Qed.
End threads.
