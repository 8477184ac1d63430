(** * Client programs over value types that keep their contract: proofs. *)

From stdpp Require Import base gmap list.
From Verif Require Import Lang Common Indirect20 Indirect14 Polymorphic20 Polymorphic14 Client Spec Rep RunLemmas Headers Hist Tree TreeProps TreeAssign TreeAssignC TreeMove TreeMoveAssign Contract ContractProps ContractOps ContractMove ContractClient.

Section client.
Context {E : Env} (T : TP E) (K : Cls E) (HO : Honest T K).
Context (HA : AllocReq E) (Hrefl : forall a, a_eqb E a a = true).
Context (M X : Type) (code : M -> loc -> prog E X) (sem : M -> ty -> c_val K -> X + exn -> c_val K -> Prop).
Context (HC : forall f, Method K (code f) (sem f)).
Context (hs : nat -> header).
Notation A := (eA E).
Notation bmap := (gmap loc (block E)).
Notation wmap := (gmap wl (wrapper E)).
Notation wv := (option (ty * c_val K) * A)%type.
Notation vars := (gmap nat wv).
Notation held := (held K hs).
Notation held_by := (held_by K hs).
Notation part := (part K hs).
Notation gstep := (gstep K M X sem hs).
Notation gpre := (gpre K M hs).
Implicit Types m : vars.
Implicit Types s : store E.

Lemma part_dom x o B W : part x o B W -> forall u, is_Some (W !! u) -> u = WVar x \/ exists l i, u = WMem l i /\ is_Some (B !! l).
Proof.
  destruct o as [k|]; cbn; [apply (wr_dom T K HO)|]. intros [-> ->] u [q Hq]. by rewrite lookup_empty in Hq.
Qed.

Lemma held_mem s m FB FW l i : held_by s m FB FW -> is_Some (wraps s !! WMem l i) ->
  exists x, is_Some (FW x !! WMem l i) /\ is_Some (FB x !! l).
Proof.
  intros H Hi. destruct (hd_cw _ _ _ _ _ _ H _ Hi) as [x Hx]. exists x. split; [done|].
  destruct (part_dom _ _ _ _ (hd_part _ _ _ _ _ _ H x) _ Hx) as [|(l' & i' & ? & Hl)]; [done|]. by simplify_eq.
Qed.
Lemma held_mem_ok s m FB FW : held_by s m FB FW -> mem_ok s.
Proof.
  intros H l i Hi. destruct (held_mem _ _ _ _ _ _ H Hi) as (x & _ & [b Hb]). exists b. exact (lookup_weaken _ _ _ _ Hb (hd_b _ _ _ _ _ _ H x)).
Qed.
Lemma held_enclosed s m FB FW x : held_by s m FB FW -> enclosedW s (WVar x) (FB x) (FW x).
Proof.
  intros H l i [b Hb]. split; [done|]. intros Hi. destruct (held_mem _ _ _ _ _ _ H Hi) as (y & Hy & [b' Hb']).
  destruct (decide (x = y)) as [<-|Hne]; [done|]. destruct (dis_at _ _ l (hd_db _ _ _ _ _ _ H x y Hne)); congruence.
Qed.
Lemma held_at s m FB FW x k : held_by s m FB FW -> m !! x = Some k -> wrapper_at K s (hs x) (WVar x) k (FB x) (FW x).
Proof. intros H Hx. assert (HP := hd_part _ _ _ _ _ _ H x). rewrite Hx in HP. split; [done|apply H..]. Qed.
Lemma held_none s m FB FW x : held_by s m FB FW -> m !! x = None -> wraps s !! WVar x = None /\ FB x = ∅ /\ FW x = ∅.
Proof.
  intros H Hx. assert (HP := hd_part _ _ _ _ _ _ H x). rewrite Hx in HP. destruct HP as [HP1 HP2]. split; [|done].
  destruct (wraps s !! WVar x) eqn:Hw; [|done]. exfalso. destruct (hd_cw _ _ _ _ _ _ H (WVar x)) as [y Hy]; [by eexists|].
  destruct (part_dom _ _ _ _ (hd_part _ _ _ _ _ _ H y) _ Hy) as [Heq|(? & ? & ? & _)]; [|done]. simplify_eq. rewrite HP2, lookup_empty in Hy. by destruct Hy.
Qed.

(** The memory [s'] holds [m'], and what the variables other than [ws] own is what it was. *)
Definition held_since m FB FW (ws : list nat) s' m' : Prop :=
  exists FB' FW', held_by s' m' FB' FW' /\ forall z, z ∉ ws -> FB' z = FB z /\ FW' z = FW z /\ m' !! z = m !! z.
Lemma since_held m FB FW ws s' m' : held_since m FB FW ws s' m' -> held s' m'.
Proof. intros (FB' & FW' & H & _). by exists FB', FW'. Qed.
Lemma since_refl s m FB FW ws : held_by s m FB FW -> held_since m FB FW ws s m.
Proof. intros H. by exists FB, FW. Qed.
Lemma since_weaken m FB FW ws ws' s' m' : (forall z, z ∈ ws -> z ∈ ws') -> held_since m FB FW ws s' m' -> held_since m FB FW ws' s' m'.
Proof. intros Hw (FB' & FW' & H & Hz). exists FB', FW'. split; [done|]. intros z Hn. apply Hz. auto. Qed.

(** Replacing what one variable, or two, own. *)
Lemma held_put1 s s' m m' FB FW x o' B' W' :
  held_by s m FB FW -> changed s s' (FB x) (FW x) B' W' -> part x o' B' W' -> m' !! x = o' ->
  (forall z, z <> x -> m' !! z = m !! z) -> held_since m FB FW [x] s' m'.
Proof.
  intros [P Pb Pw Db Dw Cb Cw] [C1 C2 C3 C4 C5] Hp Hx Hz.
  assert (Sb : forall z, z <> x -> FB z ⊆ blocks s ∖ FB x).
  { intros z Hne. pose proof (Db z x Hne). pose proof (Pb z). clear - H H0. map_solve. }
  assert (Sw : forall z, z <> x -> FW z ⊆ wraps s ∖ FW x).
  { intros z Hne. pose proof (Dw z x Hne). pose proof (Pw z). clear - H H0. map_solve. }
  exists (fun z => if decide (z = x) then B' else FB z), (fun z => if decide (z = x) then W' else FW z). split;
    [split|intros z Hn; rewrite elem_of_list_singleton in Hn; rewrite !decide_False by done; by rewrite Hz].
  - intros z. case_decide as Hd; [by subst|]. by rewrite Hz.
  - intros z. rewrite C1. case_decide as Hd; [clear; map_solve|]. specialize (Sb z Hd). clear - Sb C4. map_solve.
  - intros z. rewrite C2. case_decide as Hd; [clear; map_solve|]. specialize (Sw z Hd). clear - Sw C5. map_solve.
  - intros z w Hne. case_decide as H1; case_decide as H2; try congruence; [..|by apply Db].
    + specialize (Sb w H2). clear - Sb C4. map_solve.
    + specialize (Sb z H1). clear - Sb C4. map_solve.
  - intros z w Hne. case_decide as H1; case_decide as H2; try congruence; [..|by apply Dw].
    + specialize (Sw w H2). clear - Sw C5. map_solve.
    + specialize (Sw z H1). clear - Sw C5. map_solve.
  - intros l [b Hl]. rewrite C1, lookup_un in Hl. destruct (B' !! l) eqn:HB'; [exists x; rewrite decide_True by done; by rewrite HB'|].
    rewrite lookup_diff in Hl. destruct (FB x !! l) eqn:HBx; [done|]. destruct (Cb l) as [z Hz']; [by eexists|]. exists z.
    rewrite decide_False; [done|]. intros ->. rewrite HBx in Hz'. by destruct Hz'.
  - intros l [b Hl]. rewrite C2, lookup_un in Hl. destruct (W' !! l) eqn:HW'; [exists x; rewrite decide_True by done; by rewrite HW'|].
    rewrite lookup_diff in Hl. destruct (FW x !! l) eqn:HWx; [done|]. destruct (Cw l) as [z Hz']; [by eexists|]. exists z.
    rewrite decide_False; [done|]. intros ->. rewrite HWx in Hz'. by destruct Hz'.
Qed.

Lemma held_put2 s s' m m' FB FW x y ox oy Bx By Wx Wy :
  held_by s m FB FW -> x <> y -> changed s s' (FB x ∪ FB y) (FW x ∪ FW y) (Bx ∪ By) (Wx ∪ Wy) ->
  Bx ##ₘ By -> Wx ##ₘ Wy -> part x ox Bx Wx -> part y oy By Wy -> m' !! x = ox -> m' !! y = oy ->
  (forall z, z <> x -> z <> y -> m' !! z = m !! z) -> held_since m FB FW [x; y] s' m'.
Proof.
  intros [P Pb Pw Db Dw Cb Cw] Hxy [C1 C2 C3 C4 C5] DB DW Hpx Hpy Hx Hy Hz.
  assert (Sb : forall z, z <> x -> z <> y -> FB z ⊆ blocks s ∖ (FB x ∪ FB y)).
  { intros z H1 H2. pose proof (Db z x H1). pose proof (Db z y H2). pose proof (Pb z). clear - H H0 H3. map_solve. }
  assert (Sw : forall z, z <> x -> z <> y -> FW z ⊆ wraps s ∖ (FW x ∪ FW y)).
  { intros z H1 H2. pose proof (Dw z x H1). pose proof (Dw z y H2). pose proof (Pw z). clear - H H0 H3. map_solve. }
  exists (fun z => if decide (z = x) then Bx else if decide (z = y) then By else FB z),
    (fun z => if decide (z = x) then Wx else if decide (z = y) then Wy else FW z). split;
    [split|intros z Hn; rewrite elem_of_cons, elem_of_list_singleton in Hn; rewrite !decide_False by tauto; rewrite Hz by tauto; done].
  - intros z. case_decide as H1; [by subst|]. case_decide as H2; [by subst|]. by rewrite Hz.
  - intros z. rewrite C1. case_decide as H1; [clear; map_solve|]. case_decide as H2; [clear - DB; map_solve|].
    specialize (Sb z H1 H2). clear - Sb C4. map_solve.
  - intros z. rewrite C2. case_decide as H1; [clear; map_solve|]. case_decide as H2; [clear - DW; map_solve|].
    specialize (Sw z H1 H2). clear - Sw C5. map_solve.
  - assert (Q : forall z, z <> x -> z <> y -> Bx ##ₘ FB z /\ By ##ₘ FB z).
    { intros z H1 H2. specialize (Sb z H1 H2). split; clear - Sb C4; map_solve. }
    intros z w Hne. repeat case_decide; subst; try congruence; try done; try (by apply Db); try (by apply Q); symmetry; try (by apply Q); done.
  - assert (Q : forall z, z <> x -> z <> y -> Wx ##ₘ FW z /\ Wy ##ₘ FW z).
    { intros z H1 H2. specialize (Sw z H1 H2). split; clear - Sw C5; map_solve. }
    intros z w Hne. repeat case_decide; subst; try congruence; try done; try (by apply Dw); try (by apply Q); symmetry; try (by apply Q); done.
  - intros l [b Hl]. rewrite C1, !lookup_un in Hl.
    destruct (Bx !! l) eqn:H1; [exists x; rewrite decide_True by done; by rewrite H1|].
    destruct (By !! l) eqn:H2; [exists y; rewrite decide_False, decide_True by done; by rewrite H2|].
    rewrite lookup_diff, lookup_un in Hl. destruct (FB x !! l) eqn:H3; [done|]. destruct (FB y !! l) eqn:H4; [done|].
    destruct (Cb l) as [z Hz']; [by eexists|]. exists z.
    rewrite !decide_False; [done|intros ->; rewrite H4 in Hz'; by destruct Hz'|intros ->; rewrite H3 in Hz'; by destruct Hz'].
  - intros l [b Hl]. rewrite C2, !lookup_un in Hl.
    destruct (Wx !! l) eqn:H1; [exists x; rewrite decide_True by done; by rewrite H1|].
    destruct (Wy !! l) eqn:H2; [exists y; rewrite decide_False, decide_True by done; by rewrite H2|].
    rewrite lookup_diff, lookup_un in Hl. destruct (FW x !! l) eqn:H3; [done|]. destruct (FW y !! l) eqn:H4; [done|].
    destruct (Cw l) as [z Hz']; [by eexists|]. exists z.
    rewrite !decide_False; [done|intros ->; rewrite H4 in Hz'; by destruct Hz'|intros ->; rewrite H3 in Hz'; by destruct Hz'].
Qed.

Lemma held_same s s' m FB FW ws : held_by s m FB FW -> same s s' -> held_since m FB FW ws s' m.
Proof.
  intros [P Pb Pw Db Dw Cb Cw] [E1 E2 E3]. exists FB, FW. split; [|done]. split; try done; [by rewrite E1|by rewrite E2|by rewrite E1|by rewrite E2].
Qed.

(** ** One operation *)
(** The variables an operation may change. *)
Definition gwrites (o : gop (E := E) M) : list nat :=
  match o with
  | GMake x _ _ _ | GCopy x _ | GCopyA x _ _ | GAssign x _ | GDestroy x | GCall x _ => [x]
  | GMove x y | GMoveA x _ y | GMoveAssign x y | GSwap x y => [x; y]
  | GValueless _ | GAlloc _ => []
  end.
Definition step_ok (o : gop M) : Prop := forall m s FB FW, held_by s m FB FW -> gpre m o ->
  match run (ginterp T M X code hs o) s with
  | ORet r s' => exists m', gstep m o (inl r) m' /\ held_since m FB FW (gwrites o) s' m'
  | OThrow e s' => exists m', gstep m o (inr e) m' /\ held_since m FB FW (gwrites o) s' m'
  | OUB _ => False
  | OTerm => match o with
       | GMoveAssign x y => x <> y /\ pocma E = true /\ exists kx ky, m !! x = Some kx /\ m !! y = Some ky /\
           a_eqb E kx.2 ky.2 = false /\ ky.1 <> None
       | _ => False
       end
  end.

Lemma run_void (p : prog E unit) s : run (void X p) s =
  match run p s with ORet _ s' => ORet RUnit s' | OThrow e s' => OThrow e s' | OUB u => OUB u | OTerm => OTerm end.
Proof. unfold void. rewrite run_bind. by destruct (run p s). Qed.

Lemma step_make x a t c : step_ok (GMake x a t c).
Proof.
  intros m s FB FW H [Hx Hmk]. cbn [ginterp]. rewrite run_void.
  destruct (held_none _ _ _ _ _ H Hx) as (Hw & HB & HW).
  assert (G := make_g T K HO (hs x) (WVar x) a t c s Hmk (held_mem_ok _ _ _ _ H) I Hw). unfold impl_of.
  destruct (run (i_inplace_a _ _ _ _ _) s) as [u s'|e s'| |]; [| |done|done].
  - destruct G as (v & B & W & Hv & Hwr & Hch). eexists. split; [split; [done|]; by exists v|].
    apply (held_put1 s s' m _ FB FW x (Some (Some (made (E := E) (hs x) t, v), a)) B W H); [by rewrite HB, HW|done|by rewrite lookup_insert|].
    intros z Hz. by rewrite lookup_insert_ne.
  - exists m. split; [done|]. by apply (held_same s).
Qed.

Lemma step_copya x a y : step_ok (GCopyA x a y).
Proof.
  intros m s FB FW H (Hx & Hh & [k Hy]). cbn [ginterp]. rewrite run_void.
  destruct (held_none _ _ _ _ _ H Hx) as (Hw & HB & HW).
  assert (Hat := held_at _ _ _ _ _ _ H Hy). rewrite <- Hh in Hat.
  assert (G := copya_g T K HO (hs x) (WVar x) a (WVar y) k _ _ s (held_mem_ok _ _ _ _ H) I Hw Hat). unfold impl_of.
  destruct (run (i_copy_a _ _ _ _) s) as [u s'|e s'| |]; [| |done|done].
  - destruct G as (k' & B & W & Hk & Hwr & Hch). eexists. split; [split; [done|]; by exists k, k'|].
    apply (held_put1 s s' m _ FB FW x (Some k') B W H); [by rewrite HB, HW|done|by rewrite lookup_insert|].
    intros z Hz. by rewrite lookup_insert_ne.
  - exists m. split; [done|]. by apply (held_same s).
Qed.

Lemma step_copy x y : step_ok (GCopy x y).
Proof.
  intros m s FB FW H (Hx & Hh & [k Hy]). cbn [ginterp]. rewrite run_void.
  destruct (held_none _ _ _ _ _ H Hx) as (Hw & HB & HW).
  assert (Hat := held_at _ _ _ _ _ _ H Hy). rewrite <- Hh in Hat.
  assert (G := copy_g T K HO (hs x) (WVar x) (WVar y) k _ _ s (held_mem_ok _ _ _ _ H) I Hw Hat). unfold impl_of.
  destruct (run (i_copy _ _ _) s) as [u s'|e s'| |]; [| |done|done].
  - destruct G as (k' & B & W & Hk & Hwr & Hch). eexists. split; [split; [done|]; by exists k, k'|].
    apply (held_put1 s s' m _ FB FW x (Some k') B W H); [by rewrite HB, HW|done|by rewrite lookup_insert|].
    intros z Hz. by rewrite lookup_insert_ne.
  - exists m. split; [done|]. by apply (held_same s).
Qed.

Lemma step_move x y : step_ok (GMove x y).
Proof.
  intros m s FB FW H (Hx & Hh & [k Hy]). cbn [ginterp]. rewrite run_void.
  destruct (held_none _ _ _ _ _ H Hx) as (Hw & HB & HW).
  assert (Hat := held_at _ _ _ _ _ _ H Hy). rewrite <- Hh in Hat.
  assert (Hxy : x <> y) by congruence.
  destruct (move_g T K Hrefl (hs x) (WVar x) (WVar y) k _ _ s Hw Hat) as (s' & R & k' & B' & W' & ky' & By' & Wy' & Hm & H1 & H2 & D1 & D2 & Hch).
  unfold impl_of. rewrite R. eexists. split; [split; [done|]; by exists k, k', ky'|].
  apply (held_put2 s s' m _ FB FW x y (Some k') (Some ky') B' By' W' Wy' H); [done|by rewrite HB, HW|done|done|done| | | |].
  - cbn. by rewrite <- Hh.
  - by rewrite lookup_insert.
  - by rewrite lookup_insert_ne, lookup_insert.
  - intros z Hz Hz2. by rewrite !lookup_insert_ne.
Qed.

Lemma step_movea x a y : step_ok (GMoveA x a y).
Proof.
  intros m s FB FW H (Hx & Hh & k & Hy & Hst). cbn [ginterp]. rewrite run_void.
  destruct (held_none _ _ _ _ _ H Hx) as (Hw & HB & HW).
  assert (Hat := held_at _ _ _ _ _ _ H Hy). rewrite <- Hh in Hat.
  assert (Hxy : x <> y) by congruence.
  assert (G := movea_g T K HO HA (hs x) (WVar x) a (WVar y) k (FB y) (FW y) s (held_mem_ok _ _ _ _ H) I Hw).
  feed specialize G; [intros l i Hli; done|exact Hat|exact (held_enclosed _ _ _ _ y H)|done|]. unfold impl_of.
  destruct (run (i_move_a _ _ _ _) s) as [u s'|e s'| |]; [| |done|done].
  - destruct G as (k' & B' & W' & ky' & By' & Wy' & Hm & H1 & H2 & D1 & D2 & Hch).
    eexists. split; [exists k; split; [done|]; split; [done|]; by exists k', ky'|].
    apply (held_put2 s s' m _ FB FW x y (Some k') (Some ky') B' By' W' Wy' H); [done|by rewrite HB, HW|done|done|done| | | |].
    + cbn. by rewrite <- Hh.
    + by rewrite lookup_insert.
    + by rewrite lookup_insert_ne, lookup_insert.
    + intros z Hz Hz2. by rewrite !lookup_insert_ne.
  - destruct G as (ky' & By' & Wy' & Hs & Hm & H1 & Hch).
    eexists. split; [exists k; split; [done|]; split; [done|]; by exists ky'|].
    apply (since_weaken _ _ _ [y]); [set_solver|]. apply (held_put1 s s' m _ FB FW y (Some ky') By' Wy' H); [done| |by rewrite lookup_insert|].
    + cbn. by rewrite <- Hh.
    + intros z Hz. by rewrite lookup_insert_ne.
Qed.

Lemma casg_same h y s : run (i_copy_assign (hdr_impl h T) y y) s = ORet tt s.
Proof.
  destruct h; cbn; unfold Indirect20.copy_assign, Indirect14.copy_assign, Polymorphic20.copy_assign, Polymorphic14.copy_assign;
    by rewrite decide_True.
Qed.
Lemma masg_same h y s : run (i_move_assign (hdr_impl h T) y y) s = ORet tt s.
Proof.
  destruct h; cbn; unfold Indirect20.move_assign, Indirect14.move_assign, Polymorphic20.move_assign, Polymorphic14.move_assign;
    rewrite decide_True by done; by rewrite run_noexcept.
Qed.
Lemma swap_same h y p a s : wraps s !! y = Some (mkW p a) -> p <> PIndet -> pocs E = true \/ a_eqb E a a = true ->
  run (i_swap (hdr_impl h T) y y) s = ORet tt s.
Proof.
  intros Hys Hp Hc.
  assert (Hset : forall s1, wraps s1 = wraps s -> set_wraps (<[y := mkW p a]> (wraps s1)) s1 = s1).
  { intros s1 E1. destruct s1. cbn in *. subst. by rewrite insert_id. }
  assert (Hswp : run (swap_p y y) s = ORet tt s).
  { unfold swap_p. erewrite st_readP by done. cbv beta. erewrite st_readP by done. cbv beta. rewrite run_bind. cbn. rewrite Hys. cbn.
    rewrite lookup_insert. cbn. rewrite insert_insert. f_equal. specialize (Hset s eq_refl). unfold set_wraps in *. cbn in *. by destruct p. }
  assert (Hswa : run (swap_a y y) s = ORet tt s).
  { unfold swap_a. erewrite st_readA by done. cbv beta. erewrite st_readA by done. cbv beta. rewrite run_bind. cbn. rewrite Hys. cbn.
    rewrite lookup_insert. cbn. rewrite insert_insert. f_equal. specialize (Hset s eq_refl). unfold set_wraps in *. cbn in *. done. }
  assert (Hrun : i_swap (hdr_impl h T) y y = Indirect20.swap y y) by (by destruct h). rewrite Hrun.
  unfold Indirect20.swap. rewrite run_noexcept. destruct (pocs E).
  - rewrite run_bind, Hswa, Hswp. done.
  - destruct Hc as [Hc|Hc]; [done|]. erewrite st_readA by done. cbv beta. erewrite st_readA by done. cbv beta. rewrite Hc, Hswp. done.
Qed.

Lemma step_assign x y : step_ok (GAssign x y).
Proof.
  intros m s FB FW H (Hh & [kx Hx] & [ky Hy]). cbn [ginterp]. rewrite run_void. unfold impl_of.
  destruct (decide (x = y)) as [<-|Hxy].
  { rewrite casg_same. exists m. cbn. rewrite decide_True by done. split; [done|by apply since_refl]. }
  assert (Hax := held_at _ _ _ _ _ _ H Hx). assert (Hay := held_at _ _ _ _ _ _ H Hy). rewrite <- Hh in Hay.
  assert (G := casg_g T K HO HA (hs x) (WVar x) (WVar y) kx ky _ _ _ _ s (held_mem_ok _ _ _ _ H) (held_enclosed _ _ _ _ x H) Hax Hay
    (hd_db _ _ _ _ _ _ H x y Hxy) (hd_dw _ _ _ _ _ _ H x y Hxy)).
  destruct (run (i_copy_assign _ _ _) s) as [u s'|e s'| |]; [| |done|done];
    destruct G as (k' & B' & W' & Ha & Hw & Hch); exists (<[x := k']> m); cbn; rewrite decide_False by done.
  - split; [exists kx, ky; split; [done|]; split; [done|]; split; [done|]; by exists k'|].
    apply (held_put1 s s' m _ FB FW x (Some k') B' W' H); [done|done|by rewrite lookup_insert|].
    intros z Hz. by rewrite lookup_insert_ne.
  - split; [exists kx, ky; split; [done|]; split; [done|]; by exists k'|].
    apply (held_put1 s s' m _ FB FW x (Some k') B' W' H); [done|done|by rewrite lookup_insert|].
    intros z Hz. by rewrite lookup_insert_ne.
Qed.

Lemma step_massign x y : step_ok (GMoveAssign x y).
Proof.
  intros m s FB FW H (Hh & [kx Hx] & [ky Hy]). cbn [ginterp]. rewrite run_void. unfold impl_of.
  destruct (decide (x = y)) as [<-|Hxy].
  { rewrite masg_same. exists m. cbn. rewrite decide_True by done. split; [done|by apply since_refl]. }
  assert (Hax := held_at _ _ _ _ _ _ H Hx). assert (Hay := held_at _ _ _ _ _ _ H Hy). rewrite <- Hh in Hay.
  assert (G := masg_g T K HO HA (hs x) (WVar x) (WVar y) kx ky _ _ _ _ s (held_mem_ok _ _ _ _ H) Hax Hay
    (hd_db _ _ _ _ _ _ H x y Hxy) (hd_dw _ _ _ _ _ _ H x y Hxy) (held_enclosed _ _ _ _ y H)).
  destruct (run (i_move_assign _ _ _) s) as [u s'|e s'| |]; [| |done|].
  - destruct G as (k' & B' & W' & ky' & By' & Wy' & Hm & H1 & H2 & D1 & D2 & Hch).
    exists (<[x := k']> (<[y := ky']> m)); cbn; rewrite decide_False by done.
    split; [exists kx, ky; split; [done|]; split; [done|]; split; [done|]; by exists k', ky'|].
    apply (held_put2 s s' m _ FB FW x y (Some k') (Some ky') B' By' W' Wy' H); [done|done|done|done|done| | | |].
    + cbn. by rewrite <- Hh.
    + by rewrite lookup_insert.
    + by rewrite lookup_insert_ne, lookup_insert.
    + intros z Hz Hz2. by rewrite !lookup_insert_ne.
  - destruct G as (ky' & By' & Wy' & Hs & Hm & H1 & Hch).
    exists (<[y := ky']> m); cbn; rewrite decide_False by done.
    split; [exists kx, ky; split; [done|]; split; [done|]; split; [done|]; by exists ky'|].
    apply (since_weaken _ _ _ [y]); [set_solver|]. apply (held_put1 s s' m _ FB FW y (Some ky') By' Wy' H); [done| |by rewrite lookup_insert|].
    + cbn. by rewrite <- Hh.
    + intros z Hz. by rewrite lookup_insert_ne.
  - destruct G as (G1 & G2 & G3). split; [done|]. split; [done|]. by exists kx, ky.
Qed.

Lemma step_swap x y : step_ok (GSwap x y).
Proof.
  intros m s FB FW H (Hh & kx & ky & Hx & Hy & Hpre). cbn [ginterp]. rewrite run_void. unfold impl_of.
  assert (Hax := held_at _ _ _ _ _ _ H Hx). assert (Hay := held_at _ _ _ _ _ _ H Hy). rewrite <- Hh in Hay.
  destruct (decide (x = y)) as [<-|Hxy].
  { destruct (wr_ptr _ _ _ _ _ _ _ Hax) as (p & Hp & Hs & _). rewrite (swap_same (hs x) (WVar x) p kx.2); [|done|done|by right].
    exists m. cbn. split; [split; [done|]|by apply since_refl]. by rewrite decide_True. }
  destruct (swap_g T K HA (hs x) (WVar x) (WVar y) kx ky _ _ _ _ s Hax Hay
    (hd_db _ _ _ _ _ _ H x y Hxy) (hd_dw _ _ _ _ _ _ H x y Hxy) Hpre) as (s' & kx' & ky' & Wx' & Wy' & R & Hsw & H1 & H2 & D & Hch).
  rewrite R. exists (<[x := kx']> (<[y := ky']> m)). cbn. rewrite decide_False by done.
  split; [split; [done|]; by exists kx, ky, kx', ky'|].
  apply (held_put2 s s' m _ FB FW x y (Some kx') (Some ky') (FB y) (FB x) Wx' Wy' H); [done|done| |done|done| | | |].
  + apply (hd_db _ _ _ _ _ _ H). congruence.
  + cbn. by rewrite <- Hh.
  + by rewrite lookup_insert.
  + by rewrite lookup_insert_ne, lookup_insert.
  + intros z Hz Hz2. by rewrite !lookup_insert_ne.
Qed.

Lemma step_destroy x : step_ok (GDestroy x).
Proof.
  intros m s FB FW H [k Hx]. cbn [ginterp]. rewrite run_void. unfold impl_of.
  destruct (dtor_g T K HO s (hs x) (WVar x) k _ _ (held_at _ _ _ _ _ _ H Hx)) as (s' & R & Hch).
  rewrite R. exists (delete x m). split; [done|].
  apply (held_put1 s s' m _ FB FW x None ∅ ∅ H); [done|done|by rewrite lookup_delete|].
  intros z Hz. by rewrite lookup_delete_ne.
Qed.

Lemma star_run h x l a t b s : wraps s !! x = Some (mkW (PLoc l) a) -> blocks s !! l = Some b -> b_hdr b = khdr (header_cls h) t l ->
  run (i_star (hdr_impl h T) x) s = ORet l s.
Proof. intros Hs Hb Hh. destruct h; cbn in *; rewrite Hs; cbn; try done; by rewrite Hb, Hh. Qed.

Lemma step_call x f : step_ok (GCall x f).
Proof.
  intros m s FB FW H (t & v & a & Hx). cbn [ginterp]. unfold impl_of.
  assert (Hax := held_at _ _ _ _ _ _ H Hx).
  destruct (wr_own T K HO _ _ _ _ _ _ _ _ Hax) as (l & b & B1 & W1 & HB & HW & HB1 & HW1 & Hob & Hres & Hty & Hhdr & HT).
  assert (Hs : wraps s !! WVar x = Some (mkW (PLoc l) a)).
  { apply (lookup_weaken (FW x)); [rewrite HW; by rewrite lookup_insert|apply H]. }
  rewrite run_bind, (star_run _ _ l a t b) by first [exact Hs|apply Hob|exact Hhdr]. rewrite run_bind.
  assert (Hen := held_enclosed _ _ _ _ x H). rewrite HB, HW in Hen. apply enclosed_in in Hen.
  assert (G := HC f t l b v B1 W1 s (held_mem_ok _ _ _ _ H) Hob Hen).
  assert (Hput : forall s' v' b' B' W', filled K l b b' t v' B' W' -> changed s s' (<[l := b]> B1) W1 (<[l := b']> B') W' ->
    held_since m FB FW [x] s' (<[x := (Some (t, v'), a)]> m)).
  { intros s' v' b' B' W' (q & -> & Hrep) [C1 C2 C3 C4 C5].
    assert (HW'x : W' !! WVar x = None).
    { destruct (W' !! WVar x) eqn:HX; [|done]. destruct (ho_dom _ _ HO _ _ _ _ _ _ Hrep) as [_ Hd].
      destruct (Hd (WVar x)) as (? & ? & ? & _); [by eexists|done]. }
    apply (held_put1 s s' m _ FB FW x (Some (Some (t, v'), a)) (<[l := set_obj (OLive t q) b]> B') (<[WVar x := mkW (PLoc l) a]> W') H).
    - rewrite HB, HW. split; [done| |done|done|].
      + rewrite C2. clear - HW1 HW'x Hs. map_solve.
      + clear - C5. map_solve.
    - exists l, (set_obj (OLive t q) b), q, B', W'. split_and!; [done|done|done| |done]. repeat split; cbn; done.
    - by rewrite lookup_insert.
    - intros z Hz. by rewrite lookup_insert_ne. }
  destruct (run (code f l) s) as [r s'|e s'| |]; [| |done|done]; destruct G as (v' & b' & B' & W' & Hsem & Hf & Hch).
  - cbn. eexists. split; [|by eapply Hput]. by exists t, v, a, v', (inl r).
  - eexists. split; [|by eapply Hput]. by exists t, v, a, v', (inr e).
Qed.

Lemma step_valueless x : step_ok (GValueless x).
Proof.
  intros m s FB FW H [k Hx]. cbn [ginterp]. unfold impl_of.
  destruct (wr_ptr _ _ _ _ _ _ _ (held_at _ _ _ _ _ _ H Hx)) as (p & Hp & Hs & _ & Hk).
  assert (HR : run (bind (i_valueless (hdr_impl (hs x) T) (WVar x)) (fun b => Ret (@RBool E X b))) s =
    ORet (RBool (match p with PLoc _ => false | _ => true end)) s).
  { destruct (hs x); cbn; rewrite Hs; by destruct p. }
  rewrite HR. exists m. split; [|by apply since_refl]. exists k. split_and!; [done| |done]. do 2 f_equal.
  destruct k.1; [by destruct Hk as [l ->]|by subst].
Qed.

Lemma step_alloc x : step_ok (GAlloc x).
Proof.
  intros m s FB FW H [k Hx]. cbn [ginterp]. unfold impl_of.
  destruct (wr_ptr _ _ _ _ _ _ _ (held_at _ _ _ _ _ _ H Hx)) as (p & Hp & Hs & _ & Hk).
  assert (HR : run (bind (i_alloc (hdr_impl (hs x) T) (WVar x)) (fun b => Ret (@RAlloc E X b))) s = ORet (RAlloc k.2) s).
  { destruct (hs x); cbn; by rewrite Hs. }
  rewrite HR. exists m. split; [|by apply since_refl]. by exists k.
Qed.

Lemma step_all o : step_ok o.
Proof.
  destruct o; [apply step_make|apply step_copy|apply step_copya|apply step_move|apply step_movea|apply step_assign|
    apply step_massign|apply step_swap|apply step_destroy|apply step_call|apply step_valueless|apply step_alloc].
Qed.

Lemma client_run c m s : held s m -> gsafe K M X sem hs c m ->
  match run (gprog T M X code hs c) s with
  | ORet rs s' => exists m', gexec K M X sem hs c m rs m' /\ held s' m'
  | OTerm => gterm K M X sem hs c m
  | _ => False
  end.
Proof.
  revert m s. induction c as [|o next IH]; intros m s Hh Hsafe; cbn [gprog].
  - exists m. done.
  - destruct Hsafe as [Hpre Hnext], Hh as (FB & FW & Hh). rewrite run_bind, run_catch, run_bind.
    assert (G := step_all o m s FB FW Hh Hpre).
    destruct (run (ginterp _ _ _ _ _ _) s) as [r s1|e s1| |]; [| |done|by left].
    + cbn. destruct G as (m1 & Hst & Hh1%since_held). rewrite run_bind.
      specialize (IH (inl r) m1 s1 Hh1 (Hnext _ _ Hst)).
      destruct (run (gprog _ _ _ _ _ _) s1) as [rs s2|e s2| |]; [|done|done|].
      * destruct IH as (m2 & Hex & Hh2). exists m2. split; [|done]. by exists (inl r), rs, m1.
      * right. by exists (inl r), m1.
    + cbn. destruct G as (m1 & Hst & Hh1%since_held). rewrite run_bind.
      specialize (IH (inr e) m1 s1 Hh1 (Hnext _ _ Hst)).
      destruct (run (gprog _ _ _ _ _ _) s1) as [rs s2|e2 s2| |]; [|done|done|].
      * destruct IH as (m2 & Hex & Hh2). exists m2. split; [|done]. by exists (inr e), rs, m1.
      * right. by exists (inr e), m1.
Qed.

Lemma held_empty s : held s ∅ <-> blocks s = ∅ /\ wraps s = ∅.
Proof.
  split.
  - intros (FB & FW & [P Pb Pw Db Dw Cb Cw]). split; apply map_eq; intros i; rewrite lookup_empty.
    + destruct (blocks s !! i) eqn:Hi; [|done]. destruct (Cb i) as [x Hx]; [by eexists|].
      specialize (P x). rewrite lookup_empty in P. destruct P as [HP _]. rewrite HP, lookup_empty in Hx. by destruct Hx.
    + destruct (wraps s !! i) eqn:Hi; [|done]. destruct (Cw i) as [x Hx]; [by eexists|].
      specialize (P x). rewrite lookup_empty in P. destruct P as [_ HP]. rewrite HP, lookup_empty in Hx. by destruct Hx.
  - intros [H1 H2]. exists (fun _ => ∅), (fun _ => ∅). split.
    + intros x. rewrite lookup_empty. done.
    + intros x. apply map_empty_subseteq.
    + intros x. apply map_empty_subseteq.
    + intros x y _. apply map_disjoint_empty_l.
    + intros x y _. apply map_disjoint_empty_l.
    + intros l. rewrite H1, lookup_empty. by intros [? ?].
    + intros l. rewrite H2, lookup_empty. by intros [? ?].
Qed.
End client.
