(** * Algorithms over ranges of wrappers: proofs. *)

From stdpp Require Import base gmap list sorting.
From Verif Require Import Lang Common Client Spec Rep RunLemmas Headers Hist Tree TreeProps TreeMove TreeMoveAssign
  Contract ContractProps ContractOps ContractMove ContractClient ContractClientProps Vector VectorProps Compare ContractCompare ContractCompareProps Algorithm.

Section alg.
Context {E : Env} (T : TP E) (K : Cls E) (HO : Honest T K) (C : Cmps E) (S : CmpSpec (c_val K)) (HC : Compares K C S).
Context (HA : AllocReq E) (Hrefl : forall a, a_eqb E a a = true).
Context (hs : nat -> header).
Notation wv := (option (ty * c_val K) * eA E)%type.
Notation vars := (gmap nat wv).
Notation held := (held K hs).
Notation impl_of x := (hdr_impl (hs x) T).
Notation vals_of := (vals_of K).
Notation R := (cmp_vals K S hs).
Implicit Types m : vars.
Implicit Types s : store E.

(** Move assignment between equal allocators frees the blocks of the target and touches no others. *)
Lemma masg_blocks h x y kx ky Bx Wx By Wy s :
  wrapper_at K s h x kx Bx Wx -> wrapper_at K s h y ky By Wy -> Wx ##ₘ Wy -> Bx ##ₘ By -> a_eqb E kx.2 ky.2 = true ->
  exists s', run (i_move_assign (hdr_impl h T) x y) s = ORet tt s' /\ blocks s' = blocks s ∖ Bx /\ exts s' = exts s.
Proof.
  intros Hx Hy DW DB Ha. rewrite massign_eq.
  destruct (wr_ptr _ _ _ _ _ _ _ Hx) as (px & Hpx & Hxs & HxW & Hxp).
  destruct (wr_ptr _ _ _ _ _ _ _ Hy) as (py & Hpy & Hys & HyW & Hyp).
  assert (HyWx : Wx !! y = None) by (destruct (dis_at _ _ y DW); congruence).
  assert (Hxy : x <> y) by congruence.
  assert (HWx := wa_w _ _ _ _ _ _ _ Hx).
  destruct ky as [[[t v]|] ay]; cbn [fst snd] in *.
  2:{ subst py. destruct (install_null_g T K HO (pocma E) h x y kx ay PNull Bx Wx s Hx HyWx Hys) as (s2 & R2 & Hw & [R3 R4 R5 R6 R7]).
      erewrite massign_null by done. rewrite R2. exists s2. split; [done|]. split; [|done]. rewrite R3. clear. map_solve. }
  destruct Hyp as [o ->].
  erewrite massign_eqa by done. rewrite run_bind, run_bind. erewrite st_swap by done.
  set (s1 := set_wraps _ s).
  assert (Hres := ar_res _ HA _ _ Ha).
  destruct (wrapped_to K h x y kx ay Bx Wx (wa_rep _ _ _ _ _ _ _ Hx)) as (p' & Hp' & _ & Hw); [by rewrite lookup_delete_ne|done|].
  assert (p' = px) as -> by congruence.
  destruct (reset_g T K HO s1 h y (kx.1, ay) Bx (<[y := mkW px ay]> (delete x Wx))) as (s2 & R2 & [E1 E2 E3 E4 E5]).
  { split; [done|exact (wa_b _ _ _ _ _ _ _ Hx)|]. cbn. clear - HWx Hxy HyWx. map_solve. }
  rewrite R2. cbn [snd] in *. cbn in E1, E2.
  assert (E2' : wraps s2 = <[y := mkW PNull ay]> (<[x := mkW (PLoc o) kx.2]> (wraps s ∖ Wx))).
  { rewrite E2. clear - Hxy HxW HyWx. map_solve. }
  assert (E1' : blocks s2 = blocks s ∖ Bx) by (rewrite E1; clear; map_solve).
  destruct (pocma E).
  - cbn. rewrite ?E2'. rewrite lookup_insert. cbn. rewrite ?E2', lookup_insert_ne by done. rewrite lookup_insert. cbn. eexists. split; [done|]. cbn. done.
  - by exists s2.
Qed.

Notation no_code := (fun (f : Empty_set) (_ : loc) => match f return prog E unit with end).
Notation no_sem := (fun (f : Empty_set) (_ : ty) (_ : c_val K) (_ : unit + exn) (_ : c_val K) => False).
Lemma masg_one x y kx ky m s : held s m -> x <> y -> hs x = hs y -> m !! x = Some kx -> m !! y = Some ky -> a_eqb E kx.2 ky.2 = true ->
  exists s', run (i_move_assign (impl_of x) (WVar x) (WVar y)) s = ORet tt s' /\
    held s' (<[x := (ky.1, kept (pocma E) kx.2 ky.2)]> (<[y := (None, ky.2)]> m)) /\
    blocks s' ⊆ blocks s /\ (kx.1 = None -> blocks s' = blocks s) /\ exts s' = exts s.
Proof.
  intros (FB & FW & H) Hxy Hh Hx Hy Ha.
  assert (Hax := held_at _ _ _ _ _ _ _ _ H Hx). assert (Hay := held_at _ _ _ _ _ _ _ _ H Hy). rewrite <- Hh in Hay.
  destruct (masg_blocks (hs x) (WVar x) (WVar y) kx ky _ _ _ _ s Hax Hay (hd_dw _ _ _ _ _ _ H x y Hxy) (hd_db _ _ _ _ _ _ H x y Hxy) Ha) as (s' & Hr & Hb & He).
  exists s'. split; [done|]. split.
  2:{ split; [rewrite Hb; clear; map_solve|]. split; [|done]. intros Hk. rewrite Hb. destruct kx as [[]]; [done|].
      destruct Hax as [[-> _] _ _]. clear. map_solve. }
  assert (G := step_massign T K HO HA Hrefl Empty_set unit no_code no_sem (no_method K) hs x y m s FB FW H).
  feed specialize G; [cbn; by rewrite Hx, Hy|]. cbn [ginterp] in G. rewrite run_void in G. unfold ContractClient.impl_of in G. rewrite Hr in G.
  destruct G as (m1 & Hst & Hh1%since_held). cbn in Hst. rewrite decide_False in Hst by done.
  destruct Hst as (kx0 & ky0 & Hkx & Hky & _ & k' & ky' & Hm & ->). rewrite Hx in Hkx. rewrite Hy in Hky. simplify_eq.
  rewrite Ha in Hm. assert (k' = (ky0.1, kept (pocma E) kx0.2 ky0.2) /\ ky' = (None, ky0.2)) as [-> ->]; [|done].
  unfold moved in Hm. destruct ky0 as [[[t v]|] a]; by destruct Hm.
Qed.

(** Allocators that come from the old ones are equal. *)
Lemma one_from m m' : one_alloc K m -> (forall z k, m' !! z = Some k -> exists z' k', m !! z' = Some k' /\ k.2 = k'.2) -> one_alloc K m'.
Proof. intros H Hf x y kx ky Hx Hy. destruct (Hf _ _ Hx) as (x' & kx' & Hx' & ->), (Hf _ _ Hy) as (y' & ky' & Hy' & ->). by eapply H. Qed.
Lemma vals_at m x u : vals_of m !! x = Some u -> exists k, m !! x = Some k /\ k.1 = u.
Proof. unfold Algorithm.vals_of. rewrite lookup_fmap. destruct (m !! x) as [k|]; cbn; [|done]. intros [= <-]. by exists k. Qed.
Lemma vals_none m x : vals_of m !! x = None -> m !! x = None.
Proof. unfold Algorithm.vals_of. rewrite lookup_fmap. by destruct (m !! x). Qed.

(** The blocks after two steps. *)
Ltac blocks_tac :=
  split;
  [match goal with B : blocks ?s2 ⊆ blocks ?s1 |- blocks ?s2 ⊆ blocks ?s =>
     transitivity (blocks s1); [exact B|first [assumption|match goal with H : blocks s1 = blocks s |- _ => by rewrite H end]] end|];
  split; [|congruence]; let Hkeep := fresh in intros Hkeep;
  match goal with H : ?k = true -> blocks _ = blocks _ |- _ => rewrite (H Hkeep) end; first [congruence|auto].
Lemma destroy_sub x k m s s' : held s m -> m !! x = Some k -> run (i_dtor (impl_of x) (WVar x)) s = ORet tt s' -> blocks s' ⊆ blocks s.
Proof.
  intros (FB & FW & H) Hx Hr. assert (Hat := held_at _ _ _ _ _ _ _ _ H Hx).
  destruct (dtor_g T K HO s (hs x) (WVar x) k _ _ Hat) as (s2 & R2 & [C1 _ _ _ _]). rewrite Hr in R2. simplify_eq. rewrite C1. clear. map_solve.
Qed.

Lemma swap_self_one x k m s : held s m -> m !! x = Some k -> run (i_swap (impl_of x) (WVar x) (WVar x)) s = ORet tt s.
Proof.
  intros (FB & FW & H) Hx. destruct (wr_ptr _ _ _ _ _ _ _ (held_at _ _ _ _ _ _ _ _ H Hx)) as (p & Hp & Hs & _).
  rewrite (swap_same T (hs x) (WVar x) p k.2); [done|done|done|by right].
Qed.

Lemma alg_run keep A : forall m s, held s m -> one_alloc K m -> asafe R hs keep A (vals_of m) ->
  let done s' res := exists m', aexec R A (vals_of m) res (vals_of m') /\ held s' m' /\
    blocks s' ⊆ blocks s /\ (keep = true -> blocks s' = blocks s) /\ exts s' = exts s in
  match run (aprog T C hs A) s with
  | ORet _ s' => done s' (inl tt)
  | OThrow e s' => done s' (inr e)
  | _ => False
  end.
Proof.
  induction A as [|r x y k IH|x y k IH|x y k IH|x y k IH|x k IH]; intros m s Hh Ho Hs; cbn [aprog asafe aexec] in *.
  - cbn. by exists m.
  - destruct Hs as (Hi & Hxy & [uy Hy] & [ux Hx] & Hk). rewrite run_bind.
    destruct (vals_at _ _ _ Hx) as (kx & Hkx & <-), (vals_at _ _ _ Hy) as (ky & Hky & <-).
    destruct Hh as (FB & FW & H). assert (HM : mem_ok s) by (by eapply held_mem_ok).
    assert (Ax := held_at _ _ _ _ _ _ _ _ H Hkx). assert (Ay := held_at _ _ _ _ _ _ _ _ H Hky). rewrite <- Hxy in Ay.
    assert (P := w_rel_ok T K HO C S HC (hs x) Hi (gen_of (hs x)) r (WVar x) (WVar y) kx ky _ _ _ _ s HM Ax Ay).
    assert (Hh : held s m) by (by exists FB, FW). assert (G := held_pure K hs _ _ s m _ Hh P). destruct P as [P _].
    destruct (run (w_rel _ _ _ _ _ _) s) as [b s1|e s1| |]; [| |done|done].
    + destruct P as [Hb [E1 E2 E3]], G as [_ G]. assert (HR : R r x kx.1 ky.1 (inl b)) by exact Hb.
      specialize (IH b m s1 G Ho (Hk _ _ _ Hx Hy HR)). cbn in IH.
      destruct (run (aprog T C hs (k b)) s1) as [u s2|e s2| |]; [| |done|done]; destruct IH as (m' & Hex & Hh' & B' & K' & X');
        exists m'; (split; [by exists kx.1, ky.1, (inl b)|]); (split; [done|]); blocks_tac.
    + destruct P as [Hb [E1 E2 E3]], G as [_ G]. exists m. split; [by exists kx.1, ky.1, (inr e)|]. split; [done|]. rewrite E1. done.
  - destruct Hs as (Hxy & ux & uy & Hx & Hy & Hk). rewrite run_bind.
    destruct (vals_at _ _ _ Hx) as (kx & Hkx & <-), (vals_at _ _ _ Hy) as (ky & Hky & <-).
    destruct (decide (x = y)) as [<-|Hne].
    { rewrite (swap_self_one x kx m s Hh Hkx). assert (ky = kx) as -> by congruence.
      rewrite insert_insert, insert_id in Hk by done. specialize (IH m s Hh Ho Hk). cbn in IH.
      destruct (run (aprog T C hs k) s) as [u s2|e s2| |]; [| |done|done]; destruct IH as (m' & Hex & Hr); exists m';
        (split; [|done]); exists kx.1, kx.1; (split; [done|]); (split; [done|]); by rewrite insert_insert, insert_id. }
    destruct (swap_one T K HA hs x y kx ky m s Hh Hne Hxy Hkx Hky) as (s1 & kx' & ky' & Hr & Hsw & H1 & B1 & X1).
    { intros _. by eapply Ho. }
    rewrite Hr. assert (Hv : vals_of (<[x := kx']> (<[y := ky']> m)) = <[x := ky.1]> (<[y := kx.1]> (vals_of m))).
    { unfold Algorithm.vals_of. rewrite !fmap_insert. unfold swapped in Hsw. destruct (pocs E); by destruct Hsw as [-> ->]. }
    rewrite <- Hv in Hk. specialize (IH _ s1 H1). feed specialize IH; [|done|].
    { apply (one_from m); [done|]. assert (Hq : (kx'.2 = kx.2 \/ kx'.2 = ky.2) /\ (ky'.2 = kx.2 \/ ky'.2 = ky.2)).
      { unfold swapped in Hsw. destruct (pocs E); destruct Hsw as [-> ->]; cbn; tauto. }
      destruct Hq as [Q1 Q2]. intros z kz [[<- <-]|[Hz [[<- <-]|[Hz' Hzm]]%lookup_insert_Some]]%lookup_insert_Some; [destruct Q1|destruct Q2|]; eauto. }
    rewrite Hv in IH. cbn in IH. destruct (run (aprog T C hs k) s1) as [u s2|e s2| |]; [| |done|done]; destruct IH as (m' & Hex & Hh' & B' & K' & X');
      exists m'; (split; [by exists kx.1, ky.1|]); (split; [done|]); blocks_tac.
  - destruct Hs as (Hxy & Hx & uy & Hy & Hk). rewrite run_bind.
    destruct (vals_at _ _ _ Hy) as (ky & Hky & <-). apply vals_none in Hx.
    destruct (move_one T K HO Hrefl hs x y ky m s Hh Hx Hky Hxy) as (s1 & Hr & H1 & B1 & X1 & _). rewrite Hr.
    assert (Hv : vals_of (<[x := ky]> (<[y := (None, ky.2)]> m)) = <[x := ky.1]> (<[y := None]> (vals_of m))) by (unfold Algorithm.vals_of; by rewrite !fmap_insert).
    rewrite <- Hv in Hk. specialize (IH _ s1 H1). feed specialize IH; [|done|].
    { apply (one_from m); [done|]. intros z kz [[<- <-]|[Hz [[<- <-]|[Hz' Hzm]]%lookup_insert_Some]]%lookup_insert_Some; eauto. }
    rewrite Hv in IH. cbn in IH. destruct (run (aprog T C hs k) s1) as [u s2|e s2| |]; [| |done|done]; destruct IH as (m' & Hex & Hh' & B' & K' & X');
      exists m'; (split; [by exists ky.1|]); (split; [done|]); blocks_tac.
  - destruct Hs as (Hxy & (ux & Hx & Hkp) & uy & Hy & Hk). rewrite run_bind.
    destruct (vals_at _ _ _ Hx) as (kx & Hkx & <-), (vals_at _ _ _ Hy) as (ky & Hky & <-).
    destruct (decide (x = y)) as [<-|Hne].
    { rewrite masg_same. assert (ky = kx) as -> by congruence.
      rewrite insert_insert, insert_id in Hk by done. specialize (IH m s Hh Ho Hk). cbn in IH.
      destruct (run (aprog T C hs k) s) as [u s2|e s2| |]; [| |done|done]; destruct IH as (m' & Hex & Hr); exists m';
        (split; [|done]); exists kx.1; (split; [done|]); by rewrite insert_insert, insert_id. }
    assert (Hkp' : keep = true -> kx.1 = None) by (intros Q; by destruct (Hkp Q)). clear Hkp.
    destruct (masg_one x y kx ky m s Hh Hne Hxy Hkx Hky) as (s1 & Hr & H1 & B1 & B1' & X1); [by eapply Ho|]. rewrite Hr.
    assert (Hv : vals_of (<[x := (ky.1, kept (pocma E) kx.2 ky.2)]> (<[y := (None, ky.2)]> m)) = <[x := ky.1]> (<[y := None]> (vals_of m)))
      by (unfold Algorithm.vals_of; by rewrite !fmap_insert).
    rewrite <- Hv in Hk. specialize (IH _ s1 H1). feed specialize IH; [|done|].
    { apply (one_from m); [done|]. intros z kz [[<- <-]|[Hz [[<- <-]|[Hz' Hzm]]%lookup_insert_Some]]%lookup_insert_Some; [|eauto..].
      unfold kept. cbn. destruct (pocma E); eauto. }
    rewrite Hv in IH. cbn in IH. destruct (run (aprog T C hs k) s1) as [u s2|e s2| |]; [| |done|done]; destruct IH as (m' & Hex & Hh' & B' & K' & X');
      exists m'; (split; [by exists ky.1|]); (split; [done|]); blocks_tac.
  - destruct Hs as ((ux & Hx & Hkp) & Hk). rewrite run_bind. destruct (vals_at _ _ _ Hx) as (kx & Hkx & <-).
    destruct (destroy_one T K HO hs x kx m s Hh Hkx) as (s1 & Hr & H1 & X1 & B1' & _). assert (B1 := destroy_sub _ _ _ _ _ Hh Hkx Hr). rewrite Hr.
    assert (Hv : vals_of (delete x m) = delete x (vals_of m)) by (unfold Algorithm.vals_of; by rewrite fmap_delete).
    rewrite <- Hv in Hk. specialize (IH _ s1 H1). feed specialize IH; [|done|].
    { apply (one_from m); [done|]. intros z kz [_ Hz]%lookup_delete_Some. eauto. }
    rewrite Hv in IH. cbn in IH. destruct (run (aprog T C hs k) s1) as [u s2|e s2| |]; [| |done|done]; destruct IH as (m' & Hex & Hh' & B' & K' & X');
      exists m'; (split; [done|]); (split; [done|]); blocks_tac.
Qed.
End alg.

(** ** Insertion sort *)
Section sort.
Context {V : Type} (le lt : V -> V -> bool).
(* [lt y x] decides whether [y] goes before [x]. *)
Context (Hlt : forall x y, lt x y = true -> le x y = true) (Hnlt : forall x y, lt x y = false -> le y x = true).
Fixpoint insv (u : V) (l : list V) : list V :=
  match l with [] => [u] | w :: l => if lt w u then w :: insv u l else u :: w :: l end.
Fixpoint sortv (l : list V) : list V := match l with [] => [] | u :: l => insv u (sortv l) end.
Lemma insv_perm u l : insv u l ≡ₚ u :: l.
Proof. induction l as [|w l IH]; cbn; [done|]. destruct (lt w u); [|done]. rewrite IH. apply Permutation_swap. Qed.
Lemma sortv_perm l : sortv l ≡ₚ l.
Proof. induction l as [|u l IH]; cbn; [done|]. by rewrite insv_perm, IH. Qed.
Lemma insv_sorted u l : Sorted (fun x y => le x y = true) l -> Sorted (fun x y => le x y = true) (insv u l).
Proof.
  induction 1 as [|w l Hl IH Hh]; cbn; [by repeat constructor|]. destruct (lt w u) eqn:Hw.
  - constructor; [done|]. destruct l as [|w' l]; cbn; [constructor; auto|]. inversion Hh; subst. destruct (lt w' u); constructor; auto.
  - constructor; [by constructor|]. constructor. auto.
Qed.
(** Equal ones stay in order. *)
Lemma insv_stable (P : V -> Prop) `{!forall u, Decision (P u)} u l : (forall x y, P x -> P y -> lt x y = false) ->
  filter P (insv u l) = filter P (u :: l).
Proof.
  intros HP. induction l as [|w l IH]; [done|]. cbn [insv]. destruct (lt w u) eqn:Hw; [|done].
  rewrite !filter_cons in *. rewrite IH. destruct (decide (P w)) as [Hpw|], (decide (P u)) as [Hpu|]; try done. by rewrite HP in Hw.
Qed.
Lemma sortv_stable (P : V -> Prop) `{!forall u, Decision (P u)} l : (forall x y, P x -> P y -> lt x y = false) ->
  filter P (sortv l) = filter P l.
Proof. intros HP. induction l as [|u l IH]; [done|]. cbn [sortv]. rewrite insv_stable by done. by rewrite !filter_cons, IH. Qed.
Lemma sortv_sorted l : Sorted (fun x y => le x y = true) (sortv l).
Proof. induction l; cbn; [constructor|]. by apply insv_sorted. Qed.
End sort.

Section isort.
Context {V : Type} (hs : nat -> header) (keep : bool) (lt : option V -> option V -> bool) (R : rel -> nat -> option V -> option V -> bool + exn -> Prop).
Context (HR : forall x u w b, R RLt x u w b -> b = inl (lt u w)).
Notation vals := (gmap nat (option V)).
Implicit Types v : vals.

(** The values at [l] in [v], and [v] with others there. *)
Definition at_ v (l : list nat) (us : list (option V)) : Prop := Forall2 (fun x u => v !! x = Some u) l us.
Fixpoint set_at v (l : list nat) (us : list (option V)) : vals :=
  match l, us with x :: l, u :: us => <[x := u]> (set_at v l us) | _, _ => v end.

Lemma set_at_ne v l us x : x ∉ l -> set_at v l us !! x = v !! x.
Proof.
  revert us. induction l as [|y l IH]; intros [|u us] Hx; try done. apply not_elem_of_cons in Hx as [Hx Hl]. cbn.
  rewrite lookup_insert_ne by done. by apply IH.
Qed.
Lemma set_at_same v l us : at_ v l us -> set_at v l us = v.
Proof. induction 1 as [|x u l us Hx Hl IH]; [done|]. cbn. rewrite IH. by apply insert_id. Qed.
Lemma at_insert v l us x u : x ∉ l -> at_ v l us -> at_ (<[x := u]> v) l us.
Proof.
  intros Hx H. induction H as [|y w l us Hy Hl IH]; [constructor|]. apply not_elem_of_cons in Hx as [Hxy Hx].
  constructor; [by rewrite lookup_insert_ne|]. by apply IH.
Qed.
Lemma at_set v l us : NoDup l -> length l = length us -> at_ (set_at v l us) l us.
Proof.
  revert us. induction l as [|x l IH]; intros [|u us] Hd Hl; try done; [constructor|]. apply NoDup_cons in Hd as [Hx Hd].
  injection Hl as Hl. cbn [set_at]. constructor; [by rewrite lookup_insert|]. apply at_insert; [done|]. by apply IH.
Qed.
Lemma set_at_insert v l us x u : x ∉ l -> set_at (<[x := u]> v) l us = <[x := u]> (set_at v l us).
Proof.
  revert us. induction l as [|y l IH]; intros [|w us] Hx; try done. apply not_elem_of_cons in Hx as [Hx Hl]. cbn.
  rewrite IH by done. by apply insert_commute.
Qed.
Lemma set_set v l us us' : NoDup l -> length us = length us' -> set_at (set_at v l us) l us' = set_at v l us'.
Proof.
  revert us us'. induction l as [|x l IH]; intros [|u us] [|u' us'] Hd Hl; try done. injection Hl as Hl. apply NoDup_cons in Hd as [Hx Hd]. cbn.
  rewrite set_at_insert by done. rewrite insert_insert. by rewrite IH.
Qed.
Lemma insv_length u (us : list (option V)) : length (insv lt u us) = length (u :: us).
Proof. apply Permutation_length, insv_perm. Qed.
Lemma sortv_length (us : list (option V)) : length (sortv lt us) = length us.
Proof. apply Permutation_length, sortv_perm. Qed.
Lemma set_at_last v t h u : t <> h -> delete t (<[h := u]> (<[t := None]> v)) = delete t (<[h := u]> v).
Proof. intros Hn. rewrite insert_commute by done. by rewrite delete_insert_delete. Qed.

Lemma insert_ok t k : forall l h v u us, NoDup (h :: t :: l) -> (forall y, y ∈ h :: l -> header_cls (hs y) = Ind /\ hs y = hs t) ->
  v !! h = Some None -> v !! t = Some u -> at_ v l us ->
  (asafe R hs keep k (delete t (set_at v (h :: l) (insv lt u us))) -> asafe R hs keep (insert_at h t l k) v) /\
  forall res v', aexec R (insert_at h t l k) v res v' -> aexec R k (delete t (set_at v (h :: l) (insv lt u us))) res v'.
Proof.
  induction l as [|y l IH]; intros h v u us Hd Hhs Hh Ht Hl; inversion Hl as [|? w ? us' Hy Hl']; subst; cbn [insert_at asafe aexec].
  - apply NoDup_cons in Hd as [Hht _]. apply not_elem_of_cons in Hht as [Hht _]. cbn [insv set_at].
    destruct (Hhs h) as [_ Hhh]; [by apply elem_of_list_here|].
    rewrite <- (set_at_last v t h u) by done. split.
    + intros Hk. split; [done|]. split; [exists None; by auto|]. exists u. split; [done|]. split; [|done].
      exists None. split; [|done]. by rewrite lookup_insert_ne, lookup_insert.
    + intros res v' (u' & Hu & Hex). simplify_eq. done.
  - apply NoDup_cons in Hd as [Hht Hd]. apply not_elem_of_cons in Hht as [Hht Hhl]. apply not_elem_of_cons in Hhl as [Hhy Hhl].
    apply NoDup_cons in Hd as [Hty Hd]. apply not_elem_of_cons in Hty as [Hty Htl]. assert (Hd' := Hd). apply NoDup_cons in Hd' as [Hyl Hdl].
    destruct (Hhs h) as [_ Hhh]; [by apply elem_of_list_here|].
    destruct (Hhs y) as [Hyi Hyh]; [by apply elem_of_list_further, elem_of_list_here|].
    set (v1 := <[h := w]> (<[y := None]> v)).
    assert (Hsm : forall V2 : vals, V2 = delete t (set_at v (h :: y :: l) (insv lt u (w :: us'))) -> lt w u = true ->
      delete t (set_at v1 (y :: l) (insv lt u us')) = V2).
    { intros V2 -> Hw. cbn [insv]. rewrite Hw. f_equal. assert (Hlen := insv_length u us'). destruct (insv lt u us') as [|b us2]; [done|].
      cbn [set_at]. unfold v1. rewrite !set_at_insert by done. rewrite (insert_commute _ y h) by done.
      f_equal. by rewrite insert_insert. }
    assert (Hnot : lt w u = false -> delete t (set_at v (h :: y :: l) (insv lt u (w :: us'))) = delete t (<[h := u]> (<[t := None]> v))).
    { intros Hw. rewrite set_at_last by done. cbn [insv]. rewrite Hw. cbn [set_at]. f_equal. f_equal.
      rewrite set_at_same by done. by apply insert_id. }
    destruct (IH y v1 u us') as [I1 I2].
    { constructor; [|by constructor]. by apply not_elem_of_cons. }
    { intros z Hz. apply Hhs. by apply elem_of_list_further. }
    { unfold v1. by rewrite lookup_insert_ne, lookup_insert. }
    { unfold v1. by rewrite !lookup_insert_ne. }
    { unfold v1. apply at_insert; [done|]. by apply at_insert. }
    split.
    + intros Hk. split; [done|]. split; [done|]. split; [by eexists|]. split; [by eexists|]. intros ux uy b Hux Huy Hb%HR. simplify_eq.
      destruct (lt w u) eqn:Hw; cbn [asafe].
      * split; [congruence|]. split; [exists None; by auto|]. exists w. split; [done|]. apply I1. by rewrite (Hsm _ eq_refl).
      * split; [done|]. split; [exists None; by auto|]. exists u. split; [done|]. rewrite <- Hnot by done. split; [|done].
        exists None. split; [|done]. by rewrite lookup_insert_ne, lookup_insert.
    + intros res v' (ux & uy & b & Hux & Huy & Hb%HR & Hex). simplify_eq. destruct (lt w u) eqn:Hw; cbn [aexec] in Hex.
      * destruct Hex as (ux' & Hux' & Hex). simplify_eq. rewrite <- (Hsm _ eq_refl) by done. by apply I2.
      * destruct Hex as (uy' & Huy' & Hex). simplify_eq. by rewrite Hnot.
Qed.

Lemma sort_ok t : forall l k v us, NoDup (t :: l) -> (forall y, y ∈ l -> header_cls (hs y) = Ind /\ hs y = hs t) ->
  v !! t = None -> at_ v l us ->
  (asafe R hs keep k (set_at v l (sortv lt us)) -> asafe R hs keep (insertion_sort t l k) v) /\
  forall res v', aexec R (insertion_sort t l k) v res v' -> aexec R k (set_at v l (sortv lt us)) res v'.
Proof.
  induction l as [|x l IH]; intros k v us Hd Hhs Ht Hl; inversion Hl as [|? u ? us' Hx Hl']; subst; cbn [insertion_sort sortv]; [done|].
  apply NoDup_cons in Hd as [Htx Hd]. apply not_elem_of_cons in Htx as [Htx Htl]. assert (Hd' := Hd). apply NoDup_cons in Hd' as [Hxl Hdl].
  destruct (Hhs x) as [_ Hxh]; [by apply elem_of_list_here|].
  destruct (IH (ATemp t x (insert_at x t l k)) v us') as [I1 I2]; [by constructor| |done|done|].
  { intros z Hz. apply Hhs. by apply elem_of_list_further. }
  set (v1 := set_at v l (sortv lt us')) in *.
  assert (Hv1t : v1 !! t = None) by (unfold v1; by rewrite set_at_ne).
  assert (Hv1x : v1 !! x = Some u) by (unfold v1; by rewrite set_at_ne).
  assert (Hlen : length l = length (sortv lt us')) by (rewrite sortv_length; by eapply Forall2_length).
  assert (Hv1l : at_ v1 l (sortv lt us')) by (by apply at_set).
  set (v2 := <[t := u]> (<[x := None]> v1)).
  destruct (insert_ok t k l x v2 u (sortv lt us')) as [J1 J2].
  { constructor; [by apply not_elem_of_cons|by constructor]. }
  { done. }
  { unfold v2. by rewrite lookup_insert_ne, lookup_insert. }
  { unfold v2. by rewrite lookup_insert. }
  { unfold v2. apply at_insert; [done|]. by apply at_insert. }
  assert (Heq : delete t (set_at v2 (x :: l) (insv lt u (sortv lt us'))) = set_at v (x :: l) (insv lt u (sortv lt us'))).
  { assert (Hl2 := insv_length u (sortv lt us')). destruct (insv lt u (sortv lt us')) as [|b us2]; [done|]. cbn in Hl2. injection Hl2 as Hl2.
    cbn [set_at]. unfold v2. rewrite !set_at_insert by done. unfold v1. rewrite set_set by done.
    rewrite (insert_commute _ x t), insert_insert by done. apply delete_insert.
    rewrite lookup_insert_ne, set_at_ne by done. done. }
  rewrite Heq in J1, J2. split.
  - intros Hk. apply I1. cbn [asafe]. split; [done|]. split; [done|]. exists u. split; [done|]. by apply J1.
  - intros res v' Hex%I2. cbn [aexec] in Hex. destruct Hex as (u' & Hu & Hex). simplify_eq. by apply J2.
Qed.
End isort.

(** ** Nothing is lost *)
Section contents.
Context {V : Type}.
Notation vals := (gmap nat (option V)).
Implicit Types v : vals.
Definition ol (u : option V) : list V := match u with Some w => [w] | None => [] end.
Lemma contents_insert v x u : contents (<[x := u]> v) ≡ₚ ol u ++ contents (delete x v).
Proof.
  rewrite <- insert_delete_insert. unfold contents. rewrite map_to_list_insert by apply lookup_delete. by destruct u.
Qed.
Lemma contents_at v x u : v !! x = Some u -> contents v ≡ₚ ol u ++ contents (delete x v).
Proof. intros Hx. rewrite <- (insert_id v x u) at 1 by done. apply contents_insert. Qed.
Lemma contents_two v x y ux uy : x <> y -> v !! y = Some ux -> contents (<[x := uy]> v) ≡ₚ ol uy ++ ol ux ++ contents (delete y (delete x v)).
Proof. intros Hn Hy. rewrite contents_insert. rewrite (contents_at (delete x v) y ux); [done|]. by rewrite lookup_delete_ne. Qed.
Lemma contents_put v x y u w : x <> y -> contents (<[x := u]> (<[y := w]> v)) ≡ₚ ol u ++ ol w ++ contents (delete y (delete x v)).
Proof.
  intros Hn. rewrite (contents_two _ x y w) by (done || apply lookup_insert). rewrite (delete_commute _ y x), delete_insert_delete.
  by rewrite (delete_commute _ x y).
Qed.
Lemma contents_get v x y u w : x <> y -> v !! x = Some u -> v !! y = Some w -> contents v ≡ₚ ol u ++ ol w ++ contents (delete y (delete x v)).
Proof. intros Hn Hx Hy. rewrite (contents_at v x u) by done. rewrite (contents_at (delete x v) y w); [done|]. by rewrite lookup_delete_ne. Qed.

Lemma alg_contents (R : rel -> nat -> option V -> option V -> bool + exn -> Prop) hs keep A : forall v res v',
  asafe R hs keep A v -> aexec R A v res v' -> contents v' ⊆+ contents v /\ (keep = true -> contents v' ≡ₚ contents v).
Proof.
  assert (Htr : forall v v1 v2 : vals, contents v2 ⊆+ contents v1 /\ (keep = true -> contents v2 ≡ₚ contents v1) ->
    contents v1 ⊆+ contents v -> (keep = true -> contents v1 ≡ₚ contents v) ->
    contents v2 ⊆+ contents v /\ (keep = true -> contents v2 ≡ₚ contents v)).
  { intros v v1 v2 [H1 H2] H3 H4. split; [by etrans|]. intros Hk. rewrite H2 by done. by apply H4. }
  induction A as [|r x y k IH|x y k IH|x y k IH|x y k IH|x k IH]; intros v res v' Hs Hx; cbn [asafe aexec] in *.
  - by destruct Hx as [_ ->].
  - destruct Hs as (_ & _ & _ & _ & Hk). destruct Hx as (ux & uy & b & H1 & H2 & Hb & Hx). destruct b as [b|e]; [|by destruct Hx as [_ ->]].
    eapply IH; [|exact Hx]. by eapply Hk.
  - destruct Hs as (_ & ux & uy & H1 & H2 & Hk). destruct Hx as (ux' & uy' & H1' & H2' & Hx). rewrite H1 in H1'. rewrite H2 in H2'. injection H1' as <-. injection H2' as <-.
    assert (Hp : contents (<[x := uy]> (<[y := ux]> v)) ≡ₚ contents v).
    { destruct (decide (x = y)) as [<-|Hn]; [assert (uy = ux) as -> by congruence; by rewrite insert_insert, insert_id|].
      rewrite contents_put, (contents_get v x y ux uy) by done. rewrite !app_assoc. by rewrite (Permutation_app_comm (ol uy)). }
    apply (Htr _ _ _ (IH _ _ _ Hk Hx)); [|done]. by rewrite Hp.
  - destruct Hs as (_ & H1 & uy & H2 & Hk). destruct Hx as (uy' & H2' & Hx). rewrite H2 in H2'. injection H2' as <-. assert (x <> y) by congruence.
    assert (Hp : contents (<[x := uy]> (<[y := None]> v)) ≡ₚ contents v).
    { rewrite contents_put by done. rewrite (delete_notin v x) by done. by rewrite (contents_at v y uy) by done. }
    apply (Htr _ _ _ (IH _ _ _ Hk Hx)); [|done]. by rewrite Hp.
  - destruct Hs as (_ & (ux & H1 & Hkp) & uy & H2 & Hk). destruct Hx as (uy' & H2' & Hx). rewrite H2 in H2'. injection H2' as <-.
    destruct (decide (x = y)) as [<-|Hn]; [rewrite insert_insert, insert_id in Hk, Hx by done; by apply (IH _ _ _ Hk Hx)|].
    apply (Htr _ _ _ (IH _ _ _ Hk Hx)).
    + rewrite contents_put, (contents_get v x y ux uy) by done. cbn [ol app]. apply submseteq_inserts_l. done.
    + intros Hkeep. rewrite contents_put, (contents_get v x y ux uy) by done. by destruct (Hkp Hkeep) as [Q| ->].
  - destruct Hs as [(ux & H1 & Hkp) Hk]. apply (Htr _ _ _ (IH _ _ _ Hk Hx)).
    + rewrite (contents_at v x ux) by done. by apply submseteq_inserts_l.
    + intros Hkeep. rewrite (contents_at v x ux) by done. by rewrite (Hkp Hkeep).
Qed.
End contents.

(** ** Removing duplicates *)
Section unique.
Context {V : Type} (hs : nat -> header) (eq : option V -> option V -> bool) (R : rel -> nat -> option V -> option V -> bool + exn -> Prop).
Context (HR : forall x u w b, R REq x u w b -> b = inl (eq u w)).
Notation vals := (gmap nat (option V)).
Implicit Types v : vals.

(** The values [us] at the first of [l]; the others of [l] are gone. *)
Fixpoint put v (l : list nat) (us : list (option V)) : vals :=
  match l, us with
  | [], _ => v
  | x :: l, [] => delete x (put v l [])
  | x :: l, u :: us => <[x := u]> (put v l us)
  end.
Lemma put_ne v l us x : x ∉ l -> put v l us !! x = v !! x.
Proof.
  revert us. induction l as [|y l IH]; intros [|u us] Hx; try done; apply not_elem_of_cons in Hx as [Hx Hl]; cbn.
  - rewrite lookup_delete_ne by done. by apply IH.
  - rewrite lookup_insert_ne by done. by apply IH.
Qed.
Lemma put_ext v v1 l us : (forall x, x ∉ l -> v !! x = v1 !! x) -> put v l us = put v1 l us.
Proof.
  intros H. apply map_eq. intros x. destruct (decide (x ∈ l)) as [Hx|Hx]; [|rewrite !put_ne by done; by apply H].
  clear H. revert us. induction l as [|y l IH]; intros us; [by apply elem_of_nil in Hx|].
  assert (Hc : x = y \/ x ∈ l) by (by apply elem_of_cons). destruct (decide (x = y)) as [<-|Hne].
  - destruct us as [|u us]; cbn; [by rewrite !lookup_delete|by rewrite !lookup_insert].
  - assert (Hl : x ∈ l) by (by destruct Hc). destruct us as [|u us]; cbn; [rewrite !lookup_delete_ne by done|rewrite !lookup_insert_ne by done]; by apply IH.
Qed.
Lemma put_insert v l us x u : x ∉ l -> put (<[x := u]> v) l us = <[x := u]> (put v l us).
Proof.
  revert us. induction l as [|y l IH]; intros [|w us] Hx; try done; apply not_elem_of_cons in Hx as [Hx Hl]; cbn; rewrite IH by done.
  - by apply delete_insert_ne.
  - by apply insert_commute.
Qed.
Lemma put_delete v l x : x ∉ l -> put (delete x v) l [] = delete x (put v l []).
Proof.
  induction l as [|y l IH]; intros Hx; [done|]. apply not_elem_of_cons in Hx as [Hx Hl]. cbn. rewrite IH by done. apply delete_commute.
Qed.
Lemma put_at v l us : NoDup l -> length us <= length l ->
  Forall2 (fun x u => put v l us !! x = Some u) (take (length us) l) us /\ forall x, x ∈ drop (length us) l -> put v l us !! x = None.
Proof.
  revert us. induction l as [|y l IH]; intros [|u us] Hd Hl; try (cbn in Hl; lia).
  - split; [constructor|]. by intros x ?%elem_of_nil.
  - split; [constructor|]. cbn [length drop]. apply NoDup_cons in Hd as [Hy Hd]. destruct (IH [] Hd) as [_ I2]; [cbn; lia|]. cbn in I2. intros x Hx. cbn.
    destruct (decide (y = x)) as [<-|Hne]; [by rewrite lookup_delete|]. rewrite lookup_delete_ne by done.
    apply I2. rewrite ?drop_0 in *. apply elem_of_cons in Hx as [->|Hx]; done.
  - apply NoDup_cons in Hd as [Hy Hd]. destruct (IH us Hd) as [I1 I2]; [cbn in Hl; lia|]. cbn [length take drop put]. split.
    + constructor; [by rewrite lookup_insert|]. assert (Hn : y ∉ take (length us) l).
      { intros Hin. apply Hy. rewrite <- (take_drop (length us) l). apply elem_of_app. by left. }
      clear - I1 Hn. revert I1 Hn. generalize (put v l us). intros p. induction 1 as [|x w l' us' Hx Hl' IH']; intros Hn; [constructor|].
      apply not_elem_of_cons in Hn as [Hn1 Hn2]. constructor; [by rewrite lookup_insert_ne|by apply IH'].
    + intros x Hx. rewrite lookup_insert_ne; [by apply I2|]. intros <-. apply Hy. rewrite <- (take_drop (length us) l). apply elem_of_app. by right.
Qed.

Lemma drop_ok k : forall l v, NoDup l -> (forall z, z ∈ l -> is_Some (v !! z)) ->
  (asafe R hs false k (put v l []) -> asafe R hs false (drop_all l k) v) /\
  forall res v', aexec R (drop_all l k) v res v' -> aexec R k (put v l []) res v'.
Proof.
  induction l as [|x l IH]; intros v Hd Hz; [done|]. apply NoDup_cons in Hd as [Hx Hd]. cbn [drop_all asafe aexec put].
  destruct (IH (delete x v) Hd) as [I1 I2].
  { intros z Hz'. rewrite lookup_delete_ne by (intros ->; done). apply Hz. by apply elem_of_list_further. }
  rewrite put_delete in I1, I2 by done. split; [|done]. intros Hk. split; [|by apply I1].
  destruct (Hz x) as [u Hu]; [by apply elem_of_list_here|]. by exists u.
Qed.

Lemma unique_at_ok k : forall l w f v u us, NoDup (w :: f ++ l) -> (forall y, y ∈ w :: f ++ l -> header_cls (hs y) = Ind /\ forall z, z ∈ w :: f ++ l -> hs y = hs z) ->
  v !! w = Some u -> (forall z, z ∈ f -> is_Some (v !! z)) -> at_ v l us ->
  (asafe R hs false k (put v (f ++ l) (uniq_after eq u us)) -> asafe R hs false (unique_at w f l k) v) /\
  forall res v', aexec R (unique_at w f l k) v res v' -> aexec R k (put v (f ++ l) (uniq_after eq u us)) res v'.
Proof.
  induction l as [|y l IH]; intros w f v u us Hd Hhs Hw Hf Hl; inversion Hl as [|? uy ? us' Hy Hl']; subst; cbn [unique_at asafe aexec uniq_after].
  - rewrite app_nil_r in *. apply drop_ok; [by apply NoDup_cons in Hd as [_ Hd]|done].
  - assert (Hy_in : y ∈ w :: f ++ y :: l) by (apply elem_of_list_further, elem_of_app; right; apply elem_of_list_here).
    assert (Hw_in : w ∈ w :: f ++ y :: l) by (apply elem_of_list_here).
    destruct (Hhs w Hw_in) as [Hwi Hwh].
    assert (Hbr : (asafe R hs false k (put v (f ++ y :: l) (if eq u uy then uniq_after eq u us' else uy :: uniq_after eq uy us')) ->
        asafe R hs false (if eq u uy then unique_at w (f ++ [y]) l k
          else match f with [] => unique_at y [] l k | z :: f => AMove z y (unique_at z (f ++ [y]) l k) end) v) /\
      forall res v', aexec R (if eq u uy then unique_at w (f ++ [y]) l k
          else match f with [] => unique_at y [] l k | z :: f => AMove z y (unique_at z (f ++ [y]) l k) end) v res v' ->
        aexec R k (put v (f ++ y :: l) (if eq u uy then uniq_after eq u us' else uy :: uniq_after eq uy us')) res v').
    { destruct (eq u uy) eqn:He.
      - destruct (IH w (f ++ [y]) v u us') as [I1 I2]; [by rewrite <- app_assoc|by rewrite <- app_assoc|done| |done|by rewrite <- app_assoc in I1, I2].
        intros z [Hz|Hz%elem_of_list_singleton]%elem_of_app; [by apply Hf|]. subst z. by eexists.
      - apply NoDup_cons in Hd as [Hwn Hd]. destruct f as [|z f]; cbn [app] in *.
        + assert (Hd' := Hd). apply NoDup_cons in Hd' as [Hyl _].
          destruct (IH y [] v uy us') as [I1 I2]; cbn [app]; [done| |done|by intros z ?%elem_of_nil|done|].
          { intros a Ha. destruct (Hhs a) as [Q1 Q2]; [by apply elem_of_list_further|]. split; [done|]. intros b Hb. apply Q2. by apply elem_of_list_further. }
          cbn [put]. cbn [app] in I1, I2. rewrite (insert_id (put v l _)) by (by rewrite put_ne). done.
        + assert (Hd' := Hd). apply NoDup_cons in Hd' as [Hz Hd2].
          assert (Hzy : z <> y). { intros ->. apply Hz, elem_of_app. right. apply elem_of_list_here. }
          assert (Hzl : z ∉ l). { intros Hin. apply Hz, elem_of_app. right. by apply elem_of_list_further. }
          assert (Hzf : z ∉ f). { intros Hin. apply Hz, elem_of_app. by left. }
          apply NoDup_app in Hd2 as (Hdf & Hdis & Hdyl). apply NoDup_cons in Hdyl as [Hyl Hdl].
          assert (Hyf : y ∉ f). { intros Hin. apply (Hdis y Hin). apply elem_of_list_here. }
          set (v1 := <[z := uy]> (<[y := None]> v)).
          destruct (IH z (f ++ [y]) v1 uy us') as [I1 I2].
          { by rewrite <- app_assoc. }
          { rewrite <- app_assoc. intros a Ha. destruct (Hhs a) as [Q1 Q2]; [by apply elem_of_list_further|]. split; [done|]. intros b Hb. apply Q2. by apply elem_of_list_further. }
          { unfold v1. by rewrite lookup_insert. }
          { intros a [Ha|Ha%elem_of_list_singleton]%elem_of_app; unfold v1.
            - rewrite !lookup_insert_ne by (intros ->; done). apply Hf. by apply elem_of_list_further.
            - subst a. rewrite lookup_insert_ne, lookup_insert by done. by eexists. }
          { unfold v1. apply at_insert; [done|]. by apply at_insert. }
          assert (Heq : put v1 ((f ++ [y]) ++ l) (uniq_after eq uy us') = put v (z :: f ++ y :: l) (uy :: uniq_after eq uy us')).
          { rewrite <- app_assoc. cbn [app put]. rewrite <- put_insert by done. unfold v1. rewrite insert_commute by done.
            apply put_ext. intros a Ha. rewrite lookup_insert_ne; [done|]. intros <-. apply Ha, elem_of_app. right. apply elem_of_list_here. }
          rewrite Heq in I1, I2. cbn [asafe aexec]. split.
          * intros Hk. split; [|split].
            { destruct (Hhs z) as [_ Q]; [apply elem_of_list_further, elem_of_list_here|]. apply Q. done. }
            { destruct (Hf z) as [uz Huz]; [apply elem_of_list_here|]. by exists uz. }
            { exists uy. split; [done|]. by apply I1. }
          * intros res v' (uy' & Huy' & Hex). simplify_eq. by apply I2. }
    destruct Hbr as [Hb1 Hb2]. split.
    + intros Hk. split; [done|]. split; [by apply Hwh|]. split; [by eexists|]. split; [by eexists|]. intros ux uy' b Hux Huy Hb%HR. simplify_eq. by apply Hb1.
    + intros res v' (ux & uy' & b & Hux & Huy & Hb%HR & Hex). simplify_eq. by apply Hb2.
Qed.

Lemma unique_ok k l v us : NoDup l -> (forall y z, y ∈ l -> z ∈ l -> header_cls (hs y) = Ind /\ hs y = hs z) -> at_ v l us ->
  (asafe R hs false k (put v l (uniq eq us)) -> asafe R hs false (unique l k) v) /\
  forall res v', aexec R (unique l k) v res v' -> aexec R k (put v l (uniq eq us)) res v'.
Proof.
  intros Hd Hhs Hl. destruct Hl as [|x u l us Hx Hl]; [done|]. cbn [unique uniq put].
  assert (Hxl : x ∉ l) by (by apply NoDup_cons in Hd as [? _]).
  rewrite insert_id by (by rewrite put_ne). apply (unique_at_ok k l x [] v u us); [done| |done|by intros z ?%elem_of_nil|done].
  intros y Hy. split; [by eapply Hhs|]. intros z Hz. by apply Hhs.
Qed.
Lemma uniq_after_length (u : option V) us : length (uniq_after eq u us) <= length us.
Proof. revert u. induction us as [|w us IH]; intros u; cbn; [lia|]. destruct (eq u w); [specialize (IH u)|specialize (IH w)]; cbn; lia. Qed.
Lemma uniq_length (us : list (option V)) : length (uniq eq us) <= length us.
Proof. destruct us as [|u us]; cbn; [lia|]. specialize (uniq_after_length u us). lia. Qed.
End unique.
