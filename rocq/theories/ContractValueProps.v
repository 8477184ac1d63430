(** * Assignment of values to wrappers over a value type that keeps its contract. *)

From stdpp Require Import base gmap list.
From Verif Require Import Lang Common Client Spec Rep RunLemmas Headers Hist Tree TreeProps TreeAssign TreeAssignC TreeMove TreeMoveAssign
  Contract ContractProps ContractOps ContractMove ContractNode ContractClient ContractClientProps ContractUser ContractValue.
From Verif Require Import Indirect20 Indirect14 Polymorphic20 Polymorphic14.

Section ops.
Context {E : Env} (T : TP E) (K : Cls E) (V : Asg K) (HO : Honest T K) (HV : Assignable T K V).
Notation A := (eA E).
Notation bmap := (gmap loc (block E)).
Notation wmap := (gmap wl (wrapper E)).
Notation wv := (option (ty * c_val K) * A)%type.
Implicit Types s : store E.
Notation wrapped := (wrapped K).
Notation wrapper_at := (wrapper_at K).
Notation U := (tT E).

Lemma vset_none h x a q s : header_cls h = Ind -> wraps s !! x = Some (mkW PNull a) ->
  run (i_value_assign (hdr_impl h T) x q) s = run (bind (create T Ind a U q) (fun l => act (PWriteP x (Some l)))) s.
Proof.
  intros Hh Hx. assert (Hr : i_value_assign (hdr_impl h T) x q = Indirect20.value_assign T x q) by (by destruct h).
  rewrite Hr. unfold Indirect20.value_assign. rewrite run_bind.
  assert (R : run (Indirect20.valueless_after_move x) s = ORet true s) by (cbn; by rewrite Hx). rewrite R.
  rewrite run_bind. assert (R2 : run (act (PReadA x)) s = ORet a s) by (cbn; by rewrite Hx). by rewrite R2.
Qed.
Lemma vset_some h x l a q s : header_cls h = Ind -> wraps s !! x = Some (mkW (PLoc l) a) ->
  run (i_value_assign (hdr_impl h T) x q) s = run (tp_asgn T U l q) s.
Proof.
  intros Hh Hx. assert (Hr : i_value_assign (hdr_impl h T) x q = Indirect20.value_assign T x q) by (by destruct h).
  rewrite Hr. unfold Indirect20.value_assign. rewrite run_bind.
  assert (R : run (Indirect20.valueless_after_move x) s = ORet false s) by (cbn; by rewrite Hx). rewrite R.
  rewrite run_bind. assert (R2 : run (deref_p x) s = ORet l s) by (cbn; by rewrite Hx). by rewrite R2.
Qed.

(** Creating a value in a valueless wrapper. *)
Lemma vset_fresh h x a q s (P : c_val K -> Prop) :
  header_cls h = Ind -> wraps s !! x = Some (mkW PNull a) ->
  created K Ind a U s P (run (create T Ind a U q) s) ->
  match run (i_value_assign (hdr_impl h T) x q) s with
  | ORet _ s' => exists v B W, P v /\ wrapped h x (Some (U, v), a) B W /\ changed s s' ∅ {[ x := mkW PNull a ]} B W
  | OThrow _ s' => same s s'
  | _ => False
  end.
Proof.
  intros Hh Hx HC. rewrite (vset_none h x a q s Hh Hx), run_bind. unfold ContractProps.created in HC.
  destruct (run (create _ _ _ _ _) s) as [l s1|e s1| |]; [| |done|done]; [|done].
  destruct HC as (v & B & W & HP & Hf & [A1 A2 A3 A4 A5]).
  assert (HWx : W !! x = None) by (destruct (dis_at _ _ x A5); congruence).
  cbn [act run exec]. rewrite A2, lookup_un, HWx, Hx. cbn.
  exists v, B, (<[x := mkW (PLoc l) a]> W). split; [done|]. split; [by apply fresh_wrapped; rewrite ?Hh|].
  split; cbn; [rewrite A1|rewrite ?A2|done| |].
  - clear. map_solve.
  - clear - Hx HWx. map_solve.
  - clear - A4. map_solve.
  - clear - A5 Hx. map_solve.
Qed.

(** An object a wrapper owns, modified in place. *)
Lemma own_wrapped h x l b t a b' d' B' W' :
  W' !! x = None -> a_res E (b_a b) = a_res E a -> b_ty b = kbty (header_cls h) t -> b_hdr b = khdr (header_cls h) t l ->
  (header_cls h = Ind -> t = U) -> filled K l b b' t d' B' W' ->
  wrapped h x (Some (t, d'), a) (<[l := b']> B') (<[x := mkW (PLoc l) a]> W').
Proof.
  intros HW' Hres Hty Hhdr HT (q & -> & Hrep).
  exists l, (set_obj (OLive t q) b), q, B', W'. split_and!; [done|done|done| |done]. repeat split; cbn; done.
Qed.
Lemma own_put s s' h x l b B1 W1 t a (P : c_val K -> Prop) :
  wraps s !! x = Some (mkW (PLoc l) a) -> W1 !! x = None ->
  a_res E (b_a b) = a_res E a -> b_ty b = kbty (header_cls h) t -> b_hdr b = khdr (header_cls h) t l -> (header_cls h = Ind -> t = U) ->
  target K P t l b B1 W1 s s' ->
  exists d' B' W', P d' /\ wrapped h x (Some (t, d'), a) B' W' /\
    changed s s' (<[l := b]> B1) (<[x := mkW (PLoc l) a]> W1) B' W'.
Proof.
  intros Hxs HW1 Hres Hty Hhdr HT (d' & b' & B' & W' & HP & Hf & [C1 C2 C3 C4 C5]).
  assert (HW' : W' !! x = None).
  { destruct (dis_at _ _ x C5) as [|HX]; [done|]. rewrite lookup_diff, HW1 in HX. congruence. }
  eexists d', _, _. split; [done|]. split; [exact (own_wrapped h x l b t a b' d' B' W' HW' Hres Hty Hhdr HT Hf)|].
  split; [done|rewrite C2|done|done|].
  - clear - HW1 HW' Hxs. map_solve.
  - clear - C5. map_solve.
Qed.

Lemma vsetc_g h x c hy y kx v ay Bx Wx By Wy s :
  c <> RVal -> mem_ok s -> header_cls h = Ind -> enclosedW s x Bx Wx ->
  wrapper_at s h x kx Bx Wx -> wrapper_at s hy y (Some (U, v), ay) By Wy -> Bx ##ₘ By -> Wx ##ₘ Wy ->
  match run (bind (i_star (hdr_impl hy T) y) (fun o => i_value_assign (hdr_impl h T) x (ARef c (RBlk o)))) s with
  | ORet _ s' => exists k' B' W', set_copied K V kx v k' /\ wrapped h x k' B' W' /\ changed s s' Bx Wx B' W'
  | OThrow _ s' => exists k' B' W', set_copy_failed K V kx v k' /\ wrapped h x k' B' W' /\ changed s s' Bx Wx B' W'
  | _ => False
  end.
Proof.
  intros Hc HM Hh Hen Hx Hy DB DW.
  destruct (wr_own T K HO _ _ _ _ _ _ _ _ Hy) as (o & bo & B1 & W1 & -> & -> & HB1 & HW1 & Hob & Hreso & Htyo & Hhdro & HTo).
  assert (Hys : wraps s !! y = Some (mkW (PLoc o) ay)).
  { eapply lookup_weaken; [|exact (wa_w _ _ _ _ _ _ _ Hy)]. apply lookup_insert. }
  rewrite run_bind, (star_run T _ _ o ay U bo) by first [exact Hys|apply Hob|exact Hhdro].
  assert (DW1 : Wx ##ₘ W1) by (clear - DW HW1; map_solve).
  unfold set_copied, set_copy_failed. destruct kx as [[[t d]|] ax]; cbn [fst snd].
  - destruct (wr_own T K HO _ _ _ _ _ _ _ _ Hx) as (l & b & B2 & W2 & -> & -> & HB2 & HW2 & Hobx & Hres & Hty & Hhdr & HT).
    assert (Hxs : wraps s !! x = Some (mkW (PLoc l) ax)).
    { eapply lookup_weaken; [|exact (wa_w _ _ _ _ _ _ _ Hx)]. apply lookup_insert. }
    rewrite (vset_some h x l ax _ s Hh Hxs). assert (t = U) as -> by auto.
    assert (G := as_copy T K V HV U l b d B2 W2 c o bo v B1 W1 s Hc HM Hobx Hob DB).
    feed specialize G; [clear - DW1 HW2; map_solve|by eapply enclosed_in|].
    destruct (run (tp_asgn _ _ _ _) s) as [u s'|e s'| |]; [| |done|done].
    + destruct (own_put s s' h x l b B2 W2 U ax _ Hxs HW2 Hres Hty Hhdr HT G) as (d' & B' & W' & HP & H1 & H2).
      exists (Some (U, d'), ax), B', W'. eauto.
    + destruct (own_put s s' h x l b B2 W2 U ax _ Hxs HW2 Hres Hty Hhdr HT G) as (d' & B' & W' & HP & H1 & H2).
      exists (Some (U, d'), ax), B', W'. eauto.
  - destruct (wa_rep _ _ _ _ _ _ _ Hx) as [-> ->].
    assert (Hxs : wraps s !! x = Some (mkW PNull ax)).
    { eapply lookup_weaken; [|exact (wa_w _ _ _ _ _ _ _ Hx)]. apply lookup_singleton. }
    assert (G := vset_fresh h x ax (ARef c (RBlk o)) s _ Hh Hxs (create_copy T K HO Ind ax U c o bo v B1 W1 s Hc HM ltac:(done) Hob)).
    destruct (run (i_value_assign _ _ _) s) as [u s'|e s'| |]; [| |done|done].
    + destruct G as (v' & B & W & HP & H1 & H2). exists (Some (U, v'), ax), B, W. eauto.
    + destruct G as [I1 I2 I3]. exists (None, ax), ∅, {[ x := mkW PNull ax ]}. split; [done|]. split; [done|].
      destruct Hx as [_ _ HWx]. split; [rewrite I1|rewrite I2|done| |]; clear - HWx; map_solve.
Qed.

Lemma vset_g h x c kx Bx Wx s :
  mem_ok s -> header_cls h = Ind -> enclosedW s x Bx Wx -> wrapper_at s h x kx Bx Wx -> (exists k', set_made K V kx c k') ->
  match run (i_value_assign (hdr_impl h T) x (AArgs c)) s with
  | ORet _ s' => exists k' B' W', set_made K V kx c k' /\ wrapped h x k' B' W' /\ changed s s' Bx Wx B' W'
  | OThrow _ s' => exists k' B' W', set_make_failed K V kx c k' /\ wrapped h x k' B' W' /\ changed s s' Bx Wx B' W'
  | _ => False
  end.
Proof.
  intros HM Hh Hen Hx [k0 Hk0].
  unfold set_made, set_make_failed in *. destruct kx as [[[t d]|] ax]; cbn [fst snd] in *; destruct Hk0 as (v0 & Hv0 & ->).
  - destruct (wr_own T K HO _ _ _ _ _ _ _ _ Hx) as (l & b & B2 & W2 & -> & -> & HB2 & HW2 & Hobx & Hres & Hty & Hhdr & HT).
    assert (Hxs : wraps s !! x = Some (mkW (PLoc l) ax)).
    { eapply lookup_weaken; [|exact (wa_w _ _ _ _ _ _ _ Hx)]. apply lookup_insert. }
    rewrite (vset_some h x l ax _ s Hh Hxs). assert (t = U) as -> by auto.
    assert (G := as_set T K V HV U l b d B2 W2 c s ltac:(eauto) HM Hobx).
    feed specialize G; [by eapply enclosed_in|].
    destruct (run (tp_asgn _ _ _ _) s) as [u s'|e s'| |]; [| |done|done].
    + destruct (own_put s s' h x l b B2 W2 U ax _ Hxs HW2 Hres Hty Hhdr HT G) as (d' & B' & W' & HP & H1 & H2).
      exists (Some (U, d'), ax), B', W'. eauto.
    + destruct (own_put s s' h x l b B2 W2 U ax _ Hxs HW2 Hres Hty Hhdr HT G) as (d' & B' & W' & HP & H1 & H2).
      exists (Some (U, d'), ax), B', W'. eauto.
  - destruct (wa_rep _ _ _ _ _ _ _ Hx) as [-> ->].
    assert (Hxs : wraps s !! x = Some (mkW PNull ax)).
    { eapply lookup_weaken; [|exact (wa_w _ _ _ _ _ _ _ Hx)]. apply lookup_singleton. }
    assert (G := vset_fresh h x ax (AArgs c) s _ Hh Hxs (create_make T K HO Ind ax U c s ltac:(eauto) HM ltac:(done))).
    destruct (run (i_value_assign _ _ _) s) as [u s'|e s'| |]; [| |done|done].
    + destruct G as (v' & B & W & HP & H1 & H2). exists (Some (U, v'), ax), B, W. eauto.
    + destruct G as [I1 I2 I3]. exists (None, ax), ∅, {[ x := mkW PNull ax ]}. split; [done|]. split; [done|].
      destruct Hx as [_ _ HWx]. split; [rewrite I1|rewrite I2|done| |]; clear - HWx; map_solve.
Qed.

(** Both wrappers are valid afterwards, and own separate memory. *)
Definition both_wrapped (P : wv -> c_val K -> Prop) h x hy y ay Bx Wx By Wy s s' : Prop :=
  exists k' B' W' v' By' Wy', P k' v' /\ wrapped h x k' B' W' /\ wrapped hy y (Some (U, v'), ay) By' Wy' /\
    B' ##ₘ By' /\ W' ##ₘ Wy' /\ changed s s' (Bx ∪ By) (Wx ∪ Wy) (B' ∪ By') (W' ∪ Wy').

Lemma own_put2 s s' h x l b B1 W1 a hy y o bo Bo Wo ay (P : c_val K -> c_val K -> Prop) :
  wraps s !! x = Some (mkW (PLoc l) a) -> wraps s !! y = Some (mkW (PLoc o) ay) -> x <> y ->
  W1 !! x = None -> Wo !! y = None -> W1 !! y = None -> Wo !! x = None ->
  a_res E (b_a b) = a_res E a -> b_ty b = kbty (header_cls h) U -> b_hdr b = khdr (header_cls h) U l ->
  a_res E (b_a bo) = a_res E ay -> b_ty bo = kbty (header_cls hy) U -> b_hdr bo = khdr (header_cls hy) U o ->
  both K P U l b B1 W1 o bo Bo Wo s s' ->
  both_wrapped (fun k' v' => exists d', P d' v' /\ k' = (Some (U, d'), a)) h x hy y ay
    (<[l := b]> B1) (<[x := mkW (PLoc l) a]> W1) (<[o := bo]> Bo) (<[y := mkW (PLoc o) ay]> Wo) s s'.
Proof.
  intros Hxs Hys Hxy HW1 HWo HW1y HWox Hres Hty Hhdr Hreso Htyo Hhdro
    (d' & b' & B' & W' & v' & bo' & B2 & W2 & HP & Hf & Hfo & D1 & D2 & [C1 C2 C3 C4 C5]).
  assert (HN : W' !! x = None /\ W2 !! x = None /\ W' !! y = None /\ W2 !! y = None).
  { assert (C5x := dis_at _ _ x C5). assert (C5y := dis_at _ _ y C5). rewrite lookup_un, lookup_diff, lookup_un in C5x, C5y.
    rewrite HW1, HWox, Hxs in C5x. rewrite HW1y, HWo, Hys in C5y.
    destruct (W' !! x), (W2 !! x), (W' !! y), (W2 !! y), C5x, C5y; done. }
  destruct HN as (N1 & N2 & N3 & N4).
  eexists (Some (U, d'), a), _, _, v', _, _. split; [eauto|]. split; [exact (own_wrapped h x l b U a b' d' B' W' N1 Hres Hty Hhdr (fun _ => eq_refl) Hf)|].
  split; [exact (own_wrapped hy y o bo U ay bo' v' B2 W2 N4 Hreso Htyo Hhdro (fun _ => eq_refl) Hfo)|].
  split; [done|]. split; [|split; [done|rewrite C2|done|done|]].
  - clear - D2 Hxy N1 N2 N3 N4. map_solve.
  - clear - Hxs Hys Hxy HW1 HWo HW1y HWox N1 N2 N3 N4. map_solve.
  - clear - C5. map_solve.
Qed.

Lemma vsetm_g h x hy y kx v ay Bx Wx By Wy s :
  mem_ok s -> header_cls h = Ind -> enclosedW s x Bx Wx -> enclosedW s y By Wy ->
  wrapper_at s h x kx Bx Wx -> wrapper_at s hy y (Some (U, v), ay) By Wy -> Bx ##ₘ By -> Wx ##ₘ Wy ->
  match run (bind (i_star (hdr_impl hy T) y) (fun o => i_value_assign (hdr_impl h T) x (ARef RVal (RBlk o)))) s with
  | ORet _ s' => both_wrapped (set_moved K V kx v) h x hy y ay Bx Wx By Wy s s'
  | OThrow _ s' => both_wrapped (set_move_failed K V kx v) h x hy y ay Bx Wx By Wy s s'
  | OTerm => set_terminated K V kx v
  | OUB _ => False
  end.
Proof.
  intros HM Hh Hen Heny Hx Hy DB DW.
  destruct (wr_own T K HO _ _ _ _ _ _ _ _ Hy) as (o & bo & B1 & W1 & -> & -> & HB1 & HW1 & Hob & Hreso & Htyo & Hhdro & HTo).
  assert (Hys : wraps s !! y = Some (mkW (PLoc o) ay)).
  { eapply lookup_weaken; [|exact (wa_w _ _ _ _ _ _ _ Hy)]. apply lookup_insert. }
  rewrite run_bind, (star_run T _ _ o ay U bo) by first [exact Hys|apply Hob|exact Hhdro].
  assert (DW1 : Wx ##ₘ W1) by (clear - DW HW1; map_solve).
  assert (HWxy : Wx !! y = None).
  { destruct (dis_at _ _ y DW) as [|HX]; [done|by rewrite lookup_insert in HX]. }
  destruct (wr_in _ _ _ _ _ _ (wa_rep _ _ _ _ _ _ _ Hx)) as [wx Hwx].
  assert (Hxy : x <> y) by congruence.
  assert (HW1x : W1 !! x = None) by (destruct (dis_at _ _ x DW1); congruence).
  unfold set_moved, set_move_failed, set_terminated. destruct kx as [[[t d]|] ax]; cbn [fst snd].
  - destruct (wr_own T K HO _ _ _ _ _ _ _ _ Hx) as (l & b & B2 & W2 & -> & -> & HB2 & HW2 & Hobx & Hres & Hty & Hhdr & HT).
    assert (Hxs : wraps s !! x = Some (mkW (PLoc l) ax)).
    { eapply lookup_weaken; [|exact (wa_w _ _ _ _ _ _ _ Hx)]. apply lookup_insert. }
    rewrite (vset_some h x l ax _ s Hh Hxs). assert (t = U) as -> by auto.
    assert (G := as_move T K V HV U l b d B2 W2 o bo v B1 W1 s HM Hobx Hob DB).
    feed specialize G; [clear - DW1 HW2; map_solve|by eapply enclosed_in|by eapply enclosed_in|].
    rewrite lookup_insert_ne in HWxy by done.
    destruct (run (tp_asgn _ _ _ _) s) as [u s'|e s'| |]; [| |done|done];
      by eapply own_put2 in G.
  - destruct (wa_rep _ _ _ _ _ _ _ Hx) as [-> ->].
    assert (Hxs : wraps s !! x = Some (mkW PNull ax)).
    { eapply lookup_weaken; [|exact (wa_w _ _ _ _ _ _ _ Hx)]. apply lookup_singleton. }
    rewrite (vset_none h x ax _ s Hh Hxs), run_bind.
    assert (G := create_move T K HO Ind ax U o bo v B1 W1 s HM ltac:(done) Hob (enclosed_in _ _ _ _ _ _ _ Heny)).
    destruct (run (create _ _ _ _ _) s) as [l s1|e s1| |]; [| |done|done].
    + destruct G as (x' & B' & W' & y0 & bo' & B2 & W2 & Hmv & Hf & Hfo & D1 & D2 & [C1 C2 C3 C4 C5]).
      assert (HN : W' !! x = None /\ W2 !! x = None /\ W' !! y = None /\ W2 !! y = None).
      { assert (C5x := dis_at _ _ x C5). assert (C5y := dis_at _ _ y C5). rewrite lookup_un, lookup_diff in C5x, C5y.
        rewrite HW1x, Hxs in C5x. rewrite HW1, Hys in C5y.
        destruct (W' !! x), (W2 !! x), (W' !! y), (W2 !! y), C5x, C5y; done. }
      destruct HN as (N1 & N2 & N3 & N4).
      cbn [act run exec]. rewrite C2, lookup_un, lookup_un, N1, N2. rewrite lookup_diff, HW1x, Hxs. cbn.
      eexists (Some (U, x'), ax), B', (<[x := mkW (PLoc l) ax]> W'), y0, _, _. split; [eauto|].
      split; [by apply fresh_wrapped; rewrite ?Hh|]. split; [exact (own_wrapped hy y o bo U ay bo' y0 B2 W2 N4 Hreso Htyo Hhdro (fun _ => eq_refl) Hfo)|].
      split; [done|]. split; [|split; cbn; [rewrite C1|rewrite ?C2|done| |]].
      * clear - D2 Hxy N1 N2 N3 N4. map_solve.
      * clear. map_solve.
      * clear - Hxs Hys Hxy HW1 HW1x N1 N2 N3 N4. map_solve.
      * clear - C4. map_solve.
      * clear - C5. map_solve.
    + destruct G as (y0 & bo' & B2 & W2 & Hmf & Hfo & [C1 C2 C3 C4 C5]).
      assert (HN : W2 !! x = None /\ W2 !! y = None).
      { assert (C5x := dis_at _ _ x C5). assert (C5y := dis_at _ _ y C5). rewrite lookup_diff in C5x, C5y.
        rewrite HW1x, Hxs in C5x. rewrite HW1, Hys in C5y. destruct C5x, C5y; done. }
      destruct HN as (N1 & N2).
      eexists (None, ax), ∅, {[ x := mkW PNull ax ]}, y0, _, _. split; [split; [done|]; destruct Hmf as [(-> & _)|Hmf]; [by left|by right]|].
      split; [done|]. split; [exact (own_wrapped hy y o bo U ay bo' y0 B2 W2 N2 Hreso Htyo Hhdro (fun _ => eq_refl) Hfo)|].
      split; [clear; map_solve|]. split; [|split; cbn; [rewrite C1|rewrite ?C2|done| |]].
      * clear - Hxy N1 N2. map_solve.
      * clear. map_solve.
      * clear - Hxs Hys Hxy HW1 HW1x N1 N2. map_solve.
      * clear - C4. map_solve.
      * clear - C5 Hxs. map_solve.
Qed.
End ops.
