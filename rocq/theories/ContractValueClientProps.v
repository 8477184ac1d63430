(** * Programs that assign values to wrappers, over any value type: what they do. *)

From stdpp Require Import base gmap list.
From Verif Require Import Lang Common Client Spec Rep RunLemmas Headers Hist Tree TreeProps
  Contract ContractProps ContractOps ContractMove ContractClient ContractClientProps ContractUser ContractValue ContractValueProps ContractValueClient.

Section client.
Context {E : Env} (T : TP E) (K : Cls E) (V : Asg K) (HO : Honest T K) (HV : Assignable T K V).
Context (HA : AllocReq E) (Hrefl : forall a, a_eqb E a a = true).
Context (M X : Type) (code : M -> loc -> prog E X) (sem : M -> ty -> c_val K -> X + exn -> c_val K -> Prop).
Context (HC : forall f, Method K (code f) (sem f)).
Context (hs : nat -> header).
Notation A := (eA E).
Notation wv := (option (ty * c_val K) * A)%type.
Notation vars := (gmap nat wv).
Implicit Types m : vars.
Implicit Types s : store E.
Notation held_by := (held_by K hs).
Notation held := (held K hs).
Notation held_since := (held_since K hs).

Definition vwrites (o : vop (E := E) M) : list nat :=
  match o with VOp o => gwrites M o | VSetL x _ _ | VSet x _ => [x] | VSetR x y => [x; y] end.

Definition vstep_ok (o : vop M) : Prop := forall m s FB FW, held_by s m FB FW -> vpre K V M hs m o ->
  match run (vinterp T M X code hs o) s with
  | ORet r s' => exists m', vstep K V M X sem hs m o (inl r) m' /\ held_since m FB FW (vwrites o) s' m'
  | OThrow e s' => exists m', vstep K V M X sem hs m o (inr e) m' /\ held_since m FB FW (vwrites o) s' m'
  | OUB _ => False
  | OTerm => vends K V M m o
  end.

Lemma step_op o : vstep_ok (VOp o).
Proof.
  intros m s FB FW H Hpre. assert (G := step_all T K HO HA Hrefl M X code sem HC hs o m s FB FW H Hpre). cbn [vinterp vwrites].
  destruct (run (ginterp _ _ _ _ _ _) s); [done|done|done|]. by destruct o.
Qed.

Lemma step_setl x b y : vstep_ok (VSetL x b y).
Proof.
  intros m s FB FW H (Hxy & Hh & [k Hx] & v & a & Hy). cbn [vinterp]. rewrite run_void. unfold set_to.
  assert (Hax := held_at _ _ _ _ _ _ _ _ H Hx). assert (Hay := held_at _ _ _ _ _ _ _ _ H Hy).
  assert (G := vsetc_g T K V HO HV (hs x) (WVar x) (lv b) (hs y) (WVar y) k v a _ _ _ _ s ltac:(by destruct b)
    (held_mem_ok T K HO _ _ _ _ _ H) Hh (held_enclosed T K HO _ _ _ _ _ x H) Hax Hay
    (hd_db _ _ _ _ _ _ H x y Hxy) (hd_dw _ _ _ _ _ _ H x y Hxy)).
  destruct (run (bind _ _) s) as [u s'|e s'| |]; [| |done|done];
    destruct G as (k' & B' & W' & Hk & Hw & Hch); exists (<[x := k']> m); (split; [by exists k, v, a, k'|]);
    apply (held_put1 K hs s s' m _ FB FW x (Some k') B' W' H); try done; [by rewrite lookup_insert|intros; by rewrite lookup_insert_ne|
      by rewrite lookup_insert|intros; by rewrite lookup_insert_ne].
Qed.

Lemma step_set x c : vstep_ok (VSet x c).
Proof.
  intros m s FB FW H (Hh & k & k0 & Hx & Hk0). cbn [vinterp]. rewrite run_void.
  assert (Hax := held_at _ _ _ _ _ _ _ _ H Hx).
  assert (G := vset_g T K V HO HV (hs x) (WVar x) c k _ _ s (held_mem_ok T K HO _ _ _ _ _ H) Hh
    (held_enclosed T K HO _ _ _ _ _ x H) Hax ltac:(by exists k0)).
  destruct (run (i_value_assign _ _ _) s) as [u s'|e s'| |]; [| |done|done];
    destruct G as (k' & B' & W' & Hk & Hw & Hch); exists (<[x := k']> m); (split; [by exists k, k'|]);
    apply (held_put1 K hs s s' m _ FB FW x (Some k') B' W' H); try done; [by rewrite lookup_insert|intros; by rewrite lookup_insert_ne|
      by rewrite lookup_insert|intros; by rewrite lookup_insert_ne].
Qed.

Lemma step_setr x y : vstep_ok (VSetR x y).
Proof.
  intros m s FB FW H (Hxy & Hh & [k Hx] & v & a & Hy). cbn [vinterp]. rewrite run_void. unfold set_to.
  assert (Hax := held_at _ _ _ _ _ _ _ _ H Hx). assert (Hay := held_at _ _ _ _ _ _ _ _ H Hy).
  assert (G := vsetm_g T K V HO HV (hs x) (WVar x) (hs y) (WVar y) k v a _ _ _ _ s
    (held_mem_ok T K HO _ _ _ _ _ H) Hh (held_enclosed T K HO _ _ _ _ _ x H) (held_enclosed T K HO _ _ _ _ _ y H) Hax Hay
    (hd_db _ _ _ _ _ _ H x y Hxy) (hd_dw _ _ _ _ _ _ H x y Hxy)).
  destruct (run (bind _ _) s) as [u s'|e s'| |]; [| |done|by exists k, v, a];
    destruct G as (k' & B' & W' & v' & By' & Wy' & Hk & H1 & H2 & D1 & D2 & Hch);
    exists (<[x := k']> (<[y := (Some (tT E, v'), a)]> m)); (split; [by exists k, v, a, k', v'|]);
    apply (held_put2 K hs s s' m _ FB FW x y (Some k') (Some (Some (tT E, v'), a)) B' By' W' Wy' H); try done;
    first [by rewrite lookup_insert|by rewrite lookup_insert_ne, lookup_insert|intros; by rewrite !lookup_insert_ne].
Qed.

Lemma vstep_all o : vstep_ok o.
Proof. destruct o; [apply step_op|apply step_setl|apply step_setr|apply step_set]. Qed.

Lemma vclient_run c m s : held s m -> vsafe K V M X sem hs c m ->
  match run (vprog T M X code hs c) s with
  | ORet rs s' => exists m', vexec K V M X sem hs c m rs m' /\ held s' m'
  | OTerm => vterm K V M X sem hs c m
  | _ => False
  end.
Proof.
  revert m s. induction c as [|o next IH]; intros m s Hh Hsafe; cbn [vprog].
  - exists m. done.
  - destruct Hsafe as [Hpre Hnext], Hh as (FB & FW & Hh). rewrite run_bind, run_catch, run_bind.
    assert (G := vstep_all o m s FB FW Hh Hpre).
    destruct (run (vinterp _ _ _ _ _ _) s) as [r s1|e s1| |]; [| |done|by left].
    + cbn. destruct G as (m1 & Hst & Hh1%since_held). rewrite run_bind.
      specialize (IH (inl r) m1 s1 Hh1 (Hnext _ _ Hst)).
      destruct (run (vprog _ _ _ _ _ _) s1) as [rs s2|e s2| |]; [|done|done|].
      * destruct IH as (m2 & Hex & Hh2). exists m2. split; [|done]. by exists (inl r), rs, m1.
      * right. by exists (inl r), m1.
    + cbn. destruct G as (m1 & Hst & Hh1%since_held). rewrite run_bind.
      specialize (IH (inr e) m1 s1 Hh1 (Hnext _ _ Hst)).
      destruct (run (vprog _ _ _ _ _ _) s1) as [rs s2|e2 s2| |]; [|done|done|].
      * destruct IH as (m2 & Hex & Hh2). exists m2. split; [|done]. by exists (inr e), rs, m1.
      * right. by exists (inr e), m1.
Qed.
End client.
