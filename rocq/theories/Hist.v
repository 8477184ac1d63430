(** * Client programs: safety and refinement for all four headers. *)

From stdpp Require Import base gmap list.
From Verif Require Import Lang Common Client Spec SpecRun Rep Effect RunLemmas RunOps Refine
  RunInd RunPoly Headers.

(** The value categories with which the code invokes the value type when copying
    (see the citations in the class models): const for the copy constructor of indirect,
    non-const for its copy assignment and for polymorphic. *)
Definition code_indirect := mkCfg Ind ConstL NonConstL.
Definition code_polymorphic := mkCfg Poly NonConstL NonConstL.

(** The four headers. *)
Inductive header := HInd20 | HInd14 | HPoly20 | HPoly14.
Definition header_cfg (h : header) : cfg :=
  match h with HInd20 | HInd14 => code_indirect | _ => code_polymorphic end.
Definition header_cls (h : header) : cls := c_cls (header_cfg h).

Section hist.
Context {E : Env}.
Implicit Types s : store E.
Implicit Types I : impl E.

(** Class [I] implements the exact effects, on admissible operations. *)
Definition implements (F : cfg) (adm : op E -> spec E -> bool) I : Prop :=
  forall s ω o, Rep (c_cls F) (blocks s) (wraps s) ω ->
    pre F o (abs_spec ω (exts s)) = true -> adm o (abs_spec ω (exts s)) = true ->
    effect (c_cls F) (veff (c_cls F) (c_cc F) (c_ca F) o ω (exts s)) (interp I o) s.

Lemma ind20_implements (HA : AllocReq E) :
  implements code_indirect (fun _ _ => true) (indirect20 (flatTP E)).
Proof. intros s ω o HR Hpre _. by eapply ind20_effect. Qed.

Lemma ind14_implements (HA : AllocReq E) :
  implements code_indirect (fun _ _ => true) (indirect14 (flatTP E)).
Proof. rewrite indirect14_same. by apply ind20_implements. Qed.

Lemma poly20_implements (HA : AllocReq E) :
  implements code_polymorphic (fun _ _ => true) (polymorphic20 (flatTP E)).
Proof. intros s ω o HR Hpre _. by eapply poly20_effect. Qed.

Lemma poly14_implements (HA : AllocReq E) :
  implements code_polymorphic ok14 (polymorphic14 (flatTP E)).
Proof. intros s ω o HR Hpre Hok. by eapply poly14_effect. Qed.

(** The four headers, uniformly. *)
Definition header_impl (h : header) : impl E :=
  match h with
  | HInd20 => indirect20 (flatTP E)
  | HInd14 => indirect14 (flatTP E)
  | HPoly20 => polymorphic20 (flatTP E)
  | HPoly14 => polymorphic14 (flatTP E)
  end.

(** Restriction needed for the C++14 [polymorphic] only (see [ok14]). *)
Definition adm (h : header) : op E -> spec E -> bool :=
  match h with HPoly14 => ok14 | _ => fun _ _ => true end.

Lemma header_implements (HA : AllocReq E) h : implements (header_cfg h) (adm h) (header_impl h).
Proof.
  destruct h; [by apply ind20_implements|by apply ind14_implements
              |by apply poly20_implements|by apply poly14_implements].
Qed.

(** One operation. *)
Theorem op_correct (HA : AllocReq E) F adm I s (o : op E) :
  implements F adm I -> Inv (c_cls F) s ->
  pre F o (abs s) = true -> adm o (abs s) = true ->
  exists res, step F o (abs s) = Some res /\
    match run (interp I o) s with
    | ORet x s' => Inv (c_cls F) s' /\ x = r_obs res /\ abs s' = r_ok res
    | OThrow e s' => Inv (c_cls F) s' /\ abs s' ∈ r_exn res /\ RespFail e ∈ orc s
    | OUB _ => False
    | OTerm => may_terminate o (abs s) = true
    end.
Proof.
  intros HI HInv Hpre Hadm.
  destruct (HI s (view s) o HInv Hpre Hadm) as (r & Hr & Hm).
  destruct F as [k cc ca]. simpl in *.
  destruct (veff_refines k cc ca HA o _ _ r Hpre Hr) as (res & Hstep & Hag).
  exists res. split; [exact Hstep|].
  destruct r as [ob ω' X' evs|e ω' X' evs|]; simpl in Hm, Hag.
  - destruct Hm as (s' & -> & HR' & HX' & _). apply rep_inv in HR' as [Hinv' Hv].
    split; [done|]. destruct Hag as (H1 & H2 & _). split; [done|].
    unfold abs at 1. rewrite Hv, HX'. done.
  - destruct Hm as (s' & -> & HR' & HX' & _ & Hin). apply rep_inv in HR' as [Hinv' Hv].
    split; [done|]. split; [|done]. unfold abs at 1. rewrite Hv, HX'.
    destruct Hag as (i & _ & Hi). by eapply elem_of_list_lookup_2.
  - destruct Hm as (-> & _). by destruct Hag.
Qed.

(** All client programs. *)
Theorem client_correct (HA : AllocReq E) F adm I (c : client E) s :
  implements F adm I -> Inv (c_cls F) s -> safe_with F adm c (abs s) ->
  match run_client I c s with
  | HOk outs s' => Inv (c_cls F) s' /\ spec_run F c (abs s) outs (abs s')
  | HUB _ => False
  | HTerm => spec_term F c (abs s)
  end.
Proof.
  intros HI. revert s. induction c as [|o next IH]; intros s HInv Hsafe.
  - simpl. split; [done|]. constructor.
  - destruct Hsafe as (Hpre & Hadm & Hnext).
    destruct (op_correct HA F adm I s o HI HInv Hpre Hadm) as (res & Hstep & Hrun).
    destruct (Hnext res Hstep) as [Hok Hexn]. simpl.
    destruct (run (interp I o) s) as [x s'|e s'|u|].
    + destruct Hrun as (HInv' & -> & Habs). rewrite <- Habs in Hok.
      specialize (IH (inl (r_obs res)) s' HInv' Hok).
      destruct (run_client I (next (inl (r_obs res))) s') as [outs s''|u|]; simpl.
      * destruct IH as [? IH]. split; [done|]. eapply sr_ret; [done|]. by rewrite <- Habs.
      * done.
      * eapply st_ret; [done|]. by rewrite <- Habs.
    + destruct Hrun as (HInv' & Hin & _).
      specialize (IH (inr e) s' HInv' (Hexn e _ Hin)).
      destruct (run_client I (next (inr e)) s') as [outs s''|u|]; simpl.
      * destruct IH as [? IH]. split; [done|]. by eapply sr_exn.
      * done.
      * by eapply st_exn.
    + done.
    + by apply st_here.
Qed.

(** The state before anything happens: no wrapper objects, no storage; the
    client's own objects [X] and the answers of the environment [O] are arbitrary. *)
Definition init (X : gmap nat (ty * eV E)) (O : list resp) : store E := mkS ∅ ∅ X O [].

Lemma init_inv k X O : Inv k (init X O).
Proof.
  unfold Inv, view, init. simpl. rewrite fmap_empty. split.
  - by rewrite fmap_empty.
  - intros *. by rewrite lookup_empty.
  - intros *. by rewrite lookup_empty.
  - intros *. by rewrite lookup_empty.
Qed.

Lemma init_abs X O : abs (init X O) = mkSpec ∅ X.
Proof.
  unfold abs, abs_spec, absv, view, init. simpl. rewrite fmap_empty.
  by rewrite fmap_empty.
Qed.

(** States a client can reach from the initial state without violating a precondition. *)
Definition reachable (h : header) s : Prop :=
  exists c X O outs, safe_with (header_cfg h) (adm h) c (mkSpec ∅ X) /\
    run_client (header_impl h) c (init X O) = HOk outs s.

Lemma reachable_inv (HA : AllocReq E) h s : reachable h s -> Inv (header_cls h) s.
Proof.
  intros (c & X & O & outs & Hsafe & Hrun).
  pose proof (client_correct HA _ _ _ c (init X O) (header_implements HA h) (init_inv _ _ _)) as H.
  rewrite Hrun, init_abs in H. by apply H.
Qed.

(** The exact effect of one operation, in terms of the view of the store. *)
Lemma op_effect (HA : AllocReq E) h s (o : op E) :
  Inv (header_cls h) s -> pre (header_cfg h) o (abs s) = true -> adm h o (abs s) = true ->
  exists r, veff (header_cls h) (c_cc (header_cfg h)) (c_ca (header_cfg h)) o (view s) (exts s) r /\
    match r with
    | VRet x ω X evs =>
        exists s', run (interp (header_impl h) o) s = ORet x s' /\ Inv (header_cls h) s' /\
          view s' = ω /\ exts s' = X /\ trc s' = evs ++ trc s
    | VThrow e ω X evs =>
        exists s', run (interp (header_impl h) o) s = OThrow e s' /\ Inv (header_cls h) s' /\
          view s' = ω /\ exts s' = X /\ trc s' = evs ++ trc s /\ RespFail e ∈ orc s
    | VTerm => run (interp (header_impl h) o) s = OTerm /\ exists e, RespFail e ∈ orc s
    end.
Proof.
  intros HI Hpre Hadm.
  destruct (header_implements HA h s (view s) o HI Hpre Hadm) as (r & Hr & Hm).
  exists r. split; [done|]. destruct r as [x ω X evs|e ω X evs|]; simpl in Hm.
  - destruct Hm as (s' & Hrun & HR & HX & Ht). apply rep_inv in HR as [? ?].
    exists s'. done.
  - destruct Hm as (s' & Hrun & HR & HX & Ht & Hin). apply rep_inv in HR as [? ?].
    exists s'. done.
  - done.
Qed.

End hist.
