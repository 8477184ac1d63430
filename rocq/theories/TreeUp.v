(** * Assigning a wrapper to, or swapping it with, a wrapper nested in its own value. *)

From stdpp Require Import base gmap list.
From Verif Require Import Lang Common Client Spec Rep RunLemmas Headers Hist Tree TreeProps TreeAssign TreeAssignC TreeMove TreeMoveAssign.
From Verif Require Import TreeSub TreeSubUB TreeObs TreeSubMem TreeClient TreePlace TreeOps TreeEx TreeAsgObs TreeSubDeep.
From Verif Require Import Indirect20 Indirect14 Polymorphic20 Polymorphic14.

(** The tree with another state at [p]. *)
Fixpoint put_at {E : Env} (k : option (tree E) * eA E) (p : list nat) (k' : option (tree E) * eA E) : option (tree E) * eA E :=
  match p with
  | [] => k'
  | i :: p' =>
      match k.1 with
      | Some (TNode t v kids) => (Some (TNode t v (alter (fun ki => put_at ki p' k') i kids)), k.2)
      | None => k
      end
  end.

Section up.
Context {E : Env} (Sh : Shape E).
Notation A := (eA E).
Notation V := (eV E).
Notation wst := (option (tree E) * A)%type.
Implicit Types s : store E.
Notation wrap_heap := (wrap_heap Sh).
Notation mem_heap := (mem_heap Sh).
Notation nodeTP := (nodeTP Sh).
Notation node_impl := (node_impl Sh).
Notation placed := (placed Sh).
Notation placed_all := (placed_all Sh).
Notation hs := (k_hdr Sh (tT E)).

(** Taking the wrapper at a path out of memory and putting back another. *)
Lemma take_at p h x kx Bx Wx h' ky :
  wrap_heap h x kx Bx Wx -> sub_at_path Sh h kx p = Some (h', ky) ->
  exists y By Wy R S, wrap_heap h' y ky By Wy /\ Bx = By ∪ R /\ Wx = Wy ∪ S /\ By ##ₘ R /\ Wy ##ₘ S /\
    (forall s, S ⊆ wraps s -> walk s x p = Some y) /\ (p <> [] -> (exists l, S !! x = Some (mkW (PLoc l) kx.2) /\ is_Some (R !! l)) /\ Wy !! x = None) /\
    forall ky' By' Wy', wrap_heap h' y ky' By' Wy' -> By' ##ₘ R -> Wy' ##ₘ S ->
      wrap_heap h x (put_at kx p ky') (By' ∪ R) (Wy' ∪ S).
Proof.
  revert h x kx Bx Wx. induction p as [|i p IH]; intros h x kx Bx Wx Hx Hp.
  - cbn in Hp. simplify_eq. exists x, Bx, Wx, ∅, ∅. cbn. split_and!; try done; [map_solve..|].
    intros ky' By' Wy' Hy _ _. by rewrite !(right_id_L ∅ (∪)).
  - cbn [TreeSub.sub_at_path] in Hp. destruct kx as [[[t v kids]|] a]; [|done]. cbn [fst] in Hp.
    destruct (kids !! i) as [k|] eqn:Hi; [|done].
    apply wrap_inv in Hx as (l & b & B1 & W1 & -> & -> & HBl & HWx & Hok & Hlen & Hm).
    destruct (mem_take Sh _ _ _ _ _ _ i k Hm Hi) as (B2 & W2 & R & S & H2 & -> & -> & D1 & D2 & Hplug). cbn in H2, Hplug.
    destruct (IH _ (WMem l i) k B2 W2 H2 Hp) as (y & By & Wy & R2 & S2 & Hy & -> & -> & D3 & D4 & Hrun & _ & Hrec).
    exists y, By, Wy, (<[l := b]> (R2 ∪ R)), (<[x := mkW (PLoc l) a]> (S2 ∪ S)). split_and!; [done| | | | | | |].
    + clear - HBl. map_solve.
    + clear - HWx. map_solve.
    + clear - HBl D3 D1. map_solve.
    + clear - HWx D4 D2. map_solve.
    + intros s HW. cbn [walk]. rewrite (lookup_weaken _ _ x (mkW (PLoc l) a) (lookup_insert _ _ _) HW).
      apply Hrun. clear - HW HWx. map_solve.
    + intros _. split; [exists l; rewrite !lookup_insert; split; [done|by eexists]|]. clear - HWx. at_norm. by destruct (Wy !! x).
    + intros ky' By' Wy' Hy' X1 X2. cbn [put_at fst snd]. rewrite (alter_insert_list _ _ _ k) by done.
      assert (HBy'l : By' !! l = None).
      { destruct (dis_at _ _ l X1) as [HX|HX]; [done|]. by rewrite lookup_insert in HX. }
      assert (HWy'x : Wy' !! x = None).
      { destruct (dis_at _ _ x X2) as [HX|HX]; [done|]. by rewrite lookup_insert in HX. }
      replace (By' ∪ <[l := b]> (R2 ∪ R)) with (<[l := b]> ((By' ∪ R2) ∪ R)) by (clear - HBy'l; map_solve).
      replace (Wy' ∪ <[x := mkW (PLoc l) a]> (S2 ∪ S)) with (<[x := mkW (PLoc l) a]> ((Wy' ∪ S2) ∪ S)) by (clear - HWy'x; map_solve).
      assert (HR2l : R2 !! l = None /\ R !! l = None).
      { clear - HBl. at_norm. destruct (By !! l), (R2 !! l), (R !! l); done. }
      assert (HS2x : S2 !! x = None /\ S !! x = None).
      { clear - HWx. at_norm. destruct (Wy !! x), (S2 !! x), (S !! x); done. }
      constructor; [done|by rewrite insert_length| | |].
      * apply Hplug; [apply Hrec; [done| |]| |].
        -- clear - X1 HR2l. destruct HR2l. map_solve.
        -- clear - X2 HS2x. destruct HS2x. map_solve.
        -- clear - X1 HR2l D1. destruct HR2l. map_solve.
        -- clear - X2 HS2x D2. destruct HS2x. map_solve.
      * at_norm. by rewrite HBy'l, (proj1 HR2l), (proj2 HR2l).
      * at_norm. by rewrite HWy'x, (proj1 HS2x), (proj2 HS2x).
Qed.

Lemma sub_put p h k h' k1 k' : sub_at_path Sh h k p = Some (h', k1) -> sub_at_path Sh h (put_at k p k') p = Some (h', k').
Proof.
  revert h k. induction p as [|i p IH]; intros h k Hp; cbn in *; [by simplify_eq|].
  destruct k as [[[t v kids]|] a]; [|done]. cbn in *. destruct (kids !! i) as [ki|] eqn:Hi; [|done].
  rewrite list_lookup_alter, Hi. cbn. by apply IH.
Qed.

(** The end of an assignment; the source need only not be part of the target. *)
Lemma install_any f n h x y kx py ay T l Bx Wx B' W' s s1 :
  wrap_heap h x kx Bx Wx -> wraps s !! y = Some (mkW py ay) -> Wx !! y = None -> Bx ⊆ blocks s -> Wx ⊆ wraps s ->
  fits n kx.1 ->
  adds s s1 B' W' -> fresh_node Sh (header_cls h) (sel f kx.2 ay) T l B' W' ->
  exists s2,
    run (bind (bind (reset_of (header_cls h) (nodeTP n) x) (fun _ => act (PWriteP x (Some l))))
              (fun _ => if f then bind (act (PReadA y)) (fun a => act (PWriteA x a)) else Ret tt)) s1
    = ORet tt s2 /\
    exists W2, wrap_heap h x (Some T, sel f kx.2 ay) B' W2 /\ replaced s s2 Bx Wx B' W2.
Proof.
  intros Hx Hys HyW HBx HWx Hf [A1 A2 A3 A4 A5] Hnode.
  destruct (reset_all Sh n h x kx Bx Wx s1 Hx Hf) as (s2 & R2 & E1 & E2 & E3).
  { rewrite A1. clear - HBx A4. map_solve. }
  { rewrite A2. clear - HWx A5. map_solve. }
  destruct (wrap_in _ _ _ _ _ _ Hx) as [wx Hwx].
  assert (Hyx : y <> x) by congruence.
  assert (HxW' : W' !! x = None).
  { destruct (dis_at _ _ x A5); [done|]. pose proof (lookup_weaken _ _ _ _ Hwx HWx). congruence. }
  exists (set_wraps (<[x := mkW (PLoc l) (sel f kx.2 ay)]> (wraps s2)) s2). split.
  - rewrite !run_bind, R2. cbn [act run exec]. rewrite E2, lookup_insert. cbn [w_a run exec].
    unfold sel. destruct f; [|by rewrite <- E2].
    cbn. rewrite ?E2. rewrite !lookup_insert_ne by done. rewrite lookup_diff, HyW, A2, lookup_un.
    destruct (dis_at _ _ y A5) as [->|]; [|congruence]. rewrite Hys. cbn. rewrite lookup_insert. cbn.
    by rewrite ?E2, !insert_insert.
  - exists (<[x := mkW (PLoc l) (sel f kx.2 ay)]> W'). split.
    + destruct T as [t v kids]. destruct Hnode as (b & B1 & -> & HBl & Hok & Hlen & Hm). by constructor.
    + split; cbn; [rewrite E1, A1|rewrite E2, A2|congruence| |].
      * clear - A4 HBx. map_solve.
      * clear - A5 Hwx HWx. map_solve.
      * clear - A4. map_solve.
      * clear - A5 Hwx. map_solve.
Qed.

Context (HS : ShapeReq Sh).

(** Copy assignment where a copy is made: the source may contain the target. *)
Lemma copy_any n h x y kx T ay Bx Wx By Wy s :
  mem_ok s -> wrap_heap h x kx Bx Wx -> wrap_heap h y (Some T, ay) By Wy -> Wx !! y = None ->
  Bx ⊆ blocks s -> Wx ⊆ wraps s -> By ⊆ blocks s -> Wy ⊆ wraps s -> fits n kx.1 -> fits n (Some T) ->
  in_place (header_cls h) kx (Some T, ay) = false ->
  match run (i_copy_assign (node_impl n h) x y) s with
  | ORet _ s' => exists B' W', wrap_heap h x (copy_as (na kx.2 ay) (Some T, ay)) B' W' /\ replaced s s' Bx Wx B' W'
  | OThrow _ s' => same s s'
  | _ => False
  end.
Proof.
  intros HM Hx Hy HyWx HBx HWx HBy HWy Hfx Hfy Hcase.
  unfold Tree.node_impl. rewrite cassign_eq.
  destruct (wrap_ptr _ _ _ _ _ _ s Hx HWx) as (px & Hpx' & Hxs & Hxp).
  destruct (wrap_ptr _ _ _ _ _ _ s Hy HWy) as (py & Hpy' & Hys & Hyp). cbn [fst snd] in *.
  destruct (wrap_in _ _ _ _ _ _ Hx) as [wx Hwx]. assert (Hxy : x <> y) by congruence.
  destruct Hyp as [o ->]. destruct n as [|n]; [by destruct T|].
  apply wrap_inv in Hy. destruct T as [t v ks].
  destruct Hy as (o' & bo & B1 & W1 & -> & -> & HBo & HWy1 & (Hres & Hobj & Hty & Hhdr & HT) & Hlen & Hm).
  assert (o' = o) as ->.
  { pose proof (lookup_weaken _ _ y (mkW (PLoc o') ay) (lookup_insert _ _ _) HWy). congruence. }
  assert (Hbo : blocks s !! o = Some bo).
  { eapply lookup_weaken; [|exact HBy]. apply lookup_insert. }
  assert (HB1 : B1 ⊆ blocks s) by (clear - HBy HBo; map_solve).
  assert (HW1 : W1 ⊆ wraps s) by (clear - HWy HWy1; map_solve).
  assert (Hcopy : makes (match header_cls h with
            | Ind => Indirect20.construct_from (nodeTP (S n)) (na kx.2 ay) (ARef NonConstL (RBlk o))
            | Poly => Polymorphic20.cb_clone (nodeTP (S n)) o (na kx.2 ay) end) s
     (fresh_node Sh (header_cls h) (na kx.2 ay) (copy_tree (na kx.2 ay) (TNode t v ks)))).
  { pose proof (copy_all Sh HS n) as HCn. destruct (header_cls h); cbn in Hhdr.
    - rewrite (HT eq_refl) in *. by eapply ind_copy.
    - by eapply poly_copy. }
  set (p := match header_cls h with Ind => _ | Poly => _ end) in Hcopy.
  assert (Hread : forall X (f : A -> prog E X), run (bind (if pocca E then act (PReadA y) else act (PReadA x)) f) s =
     run (f (na kx.2 ay)) s).
  { intros X f. unfold na, sel. destruct (pocca E); by erewrite st_readA by done. }
  assert (Hrun : run (cassign (header_cls h) (nodeTP (S n)) x y) s =
    run (bind (bind p (fun tmp => bind (reset_of (header_cls h) (nodeTP (S n)) x) (fun _ => act (PWriteP x (Some tmp)))))
          (fun _ => if pocca E then bind (act (PReadA y)) (fun a => act (PWriteA x a)) else Ret tt)) s).
  { subst p. clear Hcopy. destruct (header_cls h); cbn [cassign reset_of].
    - unfold Indirect20.copy_assign. rewrite decide_False by done. erewrite st_valueless by done. cbv beta iota.
      rewrite run_bind.
      assert (Hcond : forall X (f : bool -> prog E X),
        run (bind (if t_assignable E then
             bind (Indirect20.valueless_after_move x) (fun vt =>
             if negb vt then bind (act (PReadA x)) (fun a1 => bind (act (PReadA y)) (fun a2 => Ret (a_eqb E a1 a2)))
             else Ret false) else Ret false) f) s = run (f false) s).
      { intros X f. rewrite run_bind. unfold in_place in Hcase. destruct (t_assignable E) eqn:Hasg; [|done].
        erewrite st_valueless by done. cbv beta. destruct kx as [[Tx|] ax]; cbn [fst snd] in *.
        - destruct Hxp as [lx ->]. cbn [negb]. erewrite st_readA by done. cbv beta. erewrite st_readA by done. cbv beta. by rewrite Hcase.
        - by subst px. }
      rewrite Hcond. cbv beta iota. rewrite Hread. cbv beta. erewrite st_deref by done. cbv beta. by rewrite <- run_bind.
    - unfold Polymorphic20.copy_assign.
      change (@Polymorphic20.valueless_after_move E) with (@Indirect20.valueless_after_move E).
      rewrite decide_False by done. erewrite st_valueless by done. cbv beta iota. rewrite run_bind.
      erewrite st_deref by done. cbv beta. rewrite Hread. cbv beta. by rewrite <- run_bind. }
  rewrite Hrun, run_bind, run_bind. unfold makes in Hcopy.
  destruct (run p s) as [l s1|e s1| |]; [|done|done|done].
  destruct Hcopy as (B' & W' & Hnode & HAd).
  destruct (install_any (pocca E) (S n) h x y kx (PLoc o) ay (copy_tree (na kx.2 ay) (TNode t v ks)) l Bx Wx B' W' s s1)
    as (s2 & R2 & W2 & Hw & HR); [done..|].
  rewrite run_bind in R2. rewrite R2. cbn [copy_as fst]. eauto.
Qed.

(** The source contains the target, at [p]. *)
Lemma up_copy n p h x y kx ky Bx Wx s :
  mem_ok s -> p <> [] -> wrap_heap h x kx Bx Wx -> Bx ⊆ blocks s -> Wx ⊆ wraps s -> fits n kx.1 ->
  sub_at_path Sh h kx p = Some (h, ky) -> walk s x p = Some y -> in_place (header_cls h) ky kx = false ->
  match run (i_copy_assign (node_impl n h) y x) s with
  | ORet _ s' => exists By Wy B' W' R S, Bx = By ∪ R /\ Wx = Wy ∪ S /\ B' ##ₘ R /\ W' ##ₘ S /\
      wrap_heap h y (copy_as (na ky.2 kx.2) kx) B' W' /\
      wrap_heap h x (put_at kx p (copy_as (na ky.2 kx.2) kx)) (B' ∪ R) (W' ∪ S) /\
      replaced s s' Bx Wx (B' ∪ R) (W' ∪ S)
  | OThrow _ s' => same s s'
  | _ => False
  end.
Proof.
  intros HM Hp Hx HB HW Hf Hsub Hwalk Hcase.
  destruct (take_at p h x kx Bx Wx h ky Hx Hsub) as (y' & By & Wy & R & S & Hy & -> & -> & D1 & D2 & Hwk & HxS & Hplug).
  assert (y' = y) as ->. { specialize (Hwk s). feed specialize Hwk; [clear - HW D2; map_solve|congruence]. }
  destruct (HxS Hp) as [_ HxWy]. assert (Hfy := sub_fits _ _ _ _ _ _ _ Hsub Hf).
  destruct kx as [[T|] a]; [|by destruct p].
  assert (HC := copy_any n h y x ky T a By Wy _ _ s HM Hy Hx HxWy).
  feed specialize HC; [clear - HB; map_solve|clear - HW; map_solve|done|done|done|done|done|].
  destruct (run _ s) as [u s'|e s'| |]; [|done|done|done].
  destruct HC as (B' & W' & Hw & RR).
  destruct (replaced_frame _ _ _ _ _ _ R S RR D1 D2) as (RF & X1 & X2 & _); [clear - HB D1; map_solve|clear - HW D2; map_solve|].
  exists By, Wy, B', W', R, S. split_and!; try done. by apply Hplug.
Qed.
End up.
