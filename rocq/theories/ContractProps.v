(** * The class templates over a value type that keeps its contract. *)

From stdpp Require Import base gmap list.
From Verif Require Import Lang Common Client Spec Rep RunLemmas Headers Hist Tree TreeProps TreeAssign TreeAssignC TreeMove TreeMoveAssign Contract.
From Verif Require Import Indirect20 Indirect14 Polymorphic20 Polymorphic14.

Section contract.
Context {E : Env} (T : TP E) (K : Cls E) (HO : Honest T K).
Notation A := (eA E).
Notation V := (eV E).
Notation bmap := (gmap loc (block E)).
Notation wmap := (gmap wl (wrapper E)).
Notation wv := (option (ty * c_val K) * A)%type.
Implicit Types s : store E.
Notation wrapped := (wrapped K).
Notation wrapper_at := (wrapper_at K).
Notation object := (object K).
Notation filled := (filled K).

Lemma changed_refl s B W : B ⊆ blocks s -> W ⊆ wraps s -> changed s s B W B W.
Proof. intros HB HW. split; [map_solve|map_solve|done|map_solve|map_solve]. Qed.

Lemma changed_none s s' : changed s s' ∅ ∅ ∅ ∅ <-> same s s'.
Proof.
  split.
  - intros [C1 C2 C3 _ _]. split; [rewrite C1|rewrite C2|done]; clear; map_solve.
  - intros [C1 C2 C3]. split; [rewrite C1|rewrite C2|done| |]; clear; map_solve.
Qed.

Lemma same_refl s : same s s.
Proof. by split. Qed.

(** ** Wrappers *)
Lemma wr_in h w k B W : wrapped h w k B W -> is_Some (W !! w).
Proof.
  destruct k as [[[t x]|] a].
  - intros (l & b & v & B1 & W1 & -> & -> & _). rewrite lookup_insert. by eexists.
  - intros [-> ->]. rewrite lookup_singleton. by eexists.
Qed.

Lemma wr_ptr s h w k B W : wrapper_at s h w k B W ->
  exists p, p <> PIndet /\ wraps s !! w = Some (mkW p k.2) /\ W !! w = Some (mkW p k.2) /\
    match k.1 with None => p = PNull | Some _ => exists l, p = PLoc l end.
Proof.
  intros [H HB HW]. destruct k as [[[t x]|] a].
  - destruct H as (l & b & v & B1 & W1 & -> & -> & _). exists (PLoc l).
    assert (HX := lookup_insert W1 w (mkW (PLoc l) a)). split_and!; [done| |done|by eexists].
    exact (lookup_weaken _ _ _ _ HX HW).
  - destruct H as [-> ->]. exists PNull. assert (HX := lookup_singleton w (mkW PNull a)).
    split_and!; [done| |done|done]. exact (lookup_weaken _ _ _ _ HX HW).
Qed.

(** The subobjects of a wrapper live in its blocks. *)
Lemma wr_dom h w k B W : wrapped h w k B W ->
  forall u, is_Some (W !! u) -> u = w \/ exists l i, u = WMem l i /\ is_Some (B !! l).
Proof.
  destruct k as [[[t x]|] a].
  - intros (l & b & v & B1 & W1 & -> & -> & HW & _ & Hrep) u Hu.
    destruct (ho_dom T K HO _ _ _ _ _ _ Hrep) as [_ Hd].
    destruct (decide (u = w)) as [->|Hne]; [by left|right].
    rewrite lookup_insert_ne in Hu by done. destruct (Hd _ Hu) as (l' & i & -> & Hl). exists l', i. split; [done|].
    rewrite lookup_ins. case_decide; [by eexists|]. by destruct Hl as [->|].
  - intros [-> ->] u [q Hq]. left. at_norm. by at_split.
Qed.

(** What an engaged wrapper owns. *)
Lemma wr_own s h w t x a B W : wrapper_at s h w (Some (t, x), a) B W ->
  exists l b B1 W1, B = <[l := b]> B1 /\ W = <[w := mkW (PLoc l) a]> W1 /\ B1 !! l = None /\ W1 !! w = None /\
    object s l b t x B1 W1 /\ a_res E (b_a b) = a_res E a /\ b_ty b = kbty (header_cls h) t /\
    b_hdr b = khdr (header_cls h) t l /\ (header_cls h = Ind -> t = tT E).
Proof.
  intros [(l & b & v & B1 & W1 & -> & -> & HW1 & (H1 & H2 & H3 & H4 & H5) & Hrep) HB HW].
  assert (HB1 : B1 !! l = None) by apply (ho_dom T K HO _ _ _ _ _ _ Hrep).
  exists l, b, B1, W1. split_and!; try done. split.
  - eauto.
  - eapply lookup_weaken; [|exact HB]. apply lookup_insert.
  - clear - HB HB1. map_solve.
  - clear - HW HW1. map_solve.
Qed.

(** ** Destruction *)
Lemma reset_g s h x k B W : wrapper_at s h x k B W ->
  exists s', run (reset_of (header_cls h) T x) s = ORet tt s' /\ changed s s' B W ∅ {[ x := mkW PNull k.2 ]}.
Proof.
  intros Hw. destruct (wr_ptr _ _ _ _ _ _ Hw) as (p & Hp & Hx & HWx & Hk).
  destruct k as [[[t v]|] a]; cbn [fst snd] in *.
  2:{ subst p. destruct Hw as [[-> ->] HB HW]. exists s. split.
      - destruct (header_cls h); cbn; by rewrite Hx.
      - split; [clear; map_solve|clear - Hx; map_solve|done|clear; map_solve|clear; map_solve]. }
  destruct Hk as [l ->].
  destruct (wr_own _ _ _ _ _ _ _ _ Hw) as (l' & b & B1 & W1 & -> & -> & HB1 & HW1 & Hob & Hres & Hty & Hhdr & HT).
  rewrite lookup_insert in HWx. simplify_eq.
  destruct (ho_destroy T K HO a t l b v B1 W1 s Hob) as (s1 & R1 & C1).
  assert (Hl1 : blocks s1 !! l = Some (set_obj ORaw b)).
  { rewrite (ch_b _ _ _ _ _ _ C1). at_norm. by rewrite decide_True. }
  assert (Hx1 : wraps s1 !! x = Some (mkW (PLoc l) a)).
  { rewrite (ch_w _ _ _ _ _ _ C1). at_norm. by rewrite HW1. }
  assert (Htail : forall bt, b_ty b = bt -> exists s',
    match run (act (PDealloc a bt l)) s1 with
    | ORet _ s2 => run (act (PWriteP x None)) s2
    | OThrow e s2 => OThrow e s2 | OUB u => OUB u | OTerm => OTerm end = ORet tt s' /\
    wraps s' = <[x := mkW PNull a]> (wraps s1) /\ blocks s' = delete l (blocks s1) /\ exts s' = exts s1).
  { intros bt Hbt. cbn [act run exec]. rewrite Hl1. cbn [b_ty set_obj b_a b_obj].
    rewrite Hbt, bool_decide_eq_true_2, Hres, Nat.eqb_refl by done. cbn [negb run exec].
    cbn [log set_blocks wraps]. rewrite Hx1. eexists. split; [done|]. done. }
  assert (Hfin : forall s', wraps s' = <[x := mkW PNull a]> (wraps s1) -> blocks s' = delete l (blocks s1) -> exts s' = exts s1 ->
    changed s s' (<[l := b]> B1) (<[x := mkW (PLoc l) a]> W1) ∅ {[ x := mkW PNull a ]}).
  { intros s' F1 F2 F3. destruct C1 as [C1 C2 C3 C4 C5]. split; [rewrite F2, C1|rewrite F1, C2|congruence| |].
    - clear. map_solve.
    - clear. map_solve.
    - clear. map_solve.
    - clear. map_solve. }
  destruct (header_cls h); cbn [kbty khdr] in *; cbn [reset_of].
  - rewrite (HT eq_refl) in *. unfold Indirect20.reset, Indirect20.destroy_with. rewrite run_noexcept.
    erewrite st_readP by done. cbv beta iota. erewrite st_readA by done. cbv beta.
    rewrite !run_bind, R1. destruct (Htail _ Hty) as (s2 & R2 & F1 & F2 & F3). rewrite R2. eauto.
  - unfold Polymorphic20.reset, Polymorphic20.cb_destroy. rewrite run_noexcept.
    erewrite st_readP by done. cbv beta iota. erewrite st_readA by done. cbv beta.
    rewrite run_bind. erewrite st_cbty by first [apply (ob_l _ _ _ _ _ _ _ _ Hob)|done]. cbv beta.
    rewrite run_bind, R1. destruct (Htail _ Hty) as (s2 & R2 & F1 & F2 & F3). rewrite R2. eauto.
Qed.

Lemma dtor_g s h x k B W : wrapper_at s h x k B W ->
  exists s', run (i_dtor (hdr_impl h T) x) s = ORet tt s' /\ changed s s' B W ∅ ∅.
Proof.
  intros Hw. destruct (reset_g _ _ _ _ _ _ Hw) as (s1 & R1 & [C1 C2 C3 C4 C5]).
  destruct (wr_in _ _ _ _ _ (wa_rep _ _ _ _ _ _ _ Hw)) as [q Hq].
  assert (Hx : wraps s1 !! x = Some (mkW PNull k.2)).
  { rewrite C2. at_norm. by rewrite decide_True. }
  exists (set_wraps (delete x (wraps s1)) s1). split.
  - assert (Hd : run (noexcept_if true (reset_of (header_cls h) T x) ;; act (PDelW x))%prog s =
      ORet tt (set_wraps (delete x (wraps s1)) s1)).
    { rewrite run_bind, run_noexcept, R1. cbn [act run exec]. by rewrite Hx. }
    by destruct h.
  - split; cbn; [done|rewrite C2|done|clear; map_solve|clear; map_solve].
    clear - Hq. map_solve.
Qed.

(** ** Creation of an owned object *)
Definition create (k : cls) (a : A) (t : ty) (x : arg E) : prog E loc :=
  match k with
  | Ind => Indirect20.construct_from T a x
  | Poly =>
      bind (act_thr (PAlloc a (BCb t))) (fun mem =>
      catch (bind (Polymorphic20.cb_ctor T a t mem x) (fun _ => Ret mem))
            (fun e => bind (act (PDealloc a (BCb t) mem)) (fun _ => Throw e)))
  end.

Lemma create_run k a t x s :
  mem_ok s -> (k = Ind -> t = tT E) ->
  (exists e s', run (create k a t x) s = OThrow e s' /\ same s s') \/
  exists l b s1, blocks s !! l = None /\ storage s1 l b t /\ mem_ok s1 /\
    blocks s1 = <[l := b]> (blocks s) /\ wraps s1 = wraps s /\ exts s1 = exts s /\
    match run (tp_cons T a t l x) s1 with
    | ORet _ s2 => forall o, blocks s2 !! l = Some (set_obj o b) ->
        exists s3, run (create k a t x) s = ORet l s3 /\
          blocks s3 = <[l := mkB a (kbty k t) (khdr k t l) o]> (blocks s2) /\ wraps s3 = wraps s2 /\ exts s3 = exts s2
    | OThrow e s2 => blocks s2 !! l = Some b ->
        exists s3, run (create k a t x) s = OThrow e s3 /\
          blocks s3 = delete l (blocks s2) /\ wraps s3 = wraps s2 /\ exts s3 = exts s2
    | OUB u => run (create k a t x) s = OUB u
    | OTerm => run (create k a t x) s = OTerm
    end.
Proof.
  intros HM HT. destruct k; cbn [create kbty khdr].
  - rewrite (HT eq_refl) in *. unfold Indirect20.construct_from. rewrite run_bind. cbn [act_thr run exec].
    destruct (pop_eq s) as (r & orc' & -> & _). destruct r as [h|e]; cbn [run].
    2:{ left. eexists _, _. split; [done|]. by split. }
    right. assert (Hfr := choose_fresh h (blocks s)). set (l := choose h (blocks s)) in *. clearbody l.
    set (b := mkB a (BObj (tT E)) HNone ORaw). set (s1 := log _ _).
    assert (H1b : blocks s1 = <[l := b]> (blocks s)) by done.
    assert (H1w : wraps s1 = wraps s) by done. assert (H1x : exts s1 = exts s) by done.
    exists l, b, s1. clearbody s1. split_and!; try done.
    { split; [by rewrite H1b, lookup_insert|done|cbn; by rewrite bool_decide_eq_true_2|].
      intros j. rewrite H1w. apply eq_None_not_Some. intros HH. apply HM in HH as [? ?]. congruence. }
    { intros l' i' Hi'. rewrite H1w in Hi'. rewrite H1b. at_norm. case_decide; [by eexists|]. by apply (HM l' i'). }
    rewrite run_catch, run_bind. destruct (run (tp_cons _ _ _ _ _) s1) as [u s2|e s2| |]; [| |done|done].
    + intros o Ho. cbn [run]. exists s2. split; [done|]. split_and!; try done. by rewrite insert_id.
    + intros Ho. cbn. rewrite Ho. cbn. rewrite bool_decide_eq_true_2, Nat.eqb_refl by done. cbn. eexists. split; [done|]. done.
  - unfold Polymorphic20.cb_ctor. rewrite run_bind. cbn [act_thr run exec].
    destruct (pop_eq s) as (r & orc' & -> & _). destruct r as [h|e]; cbn [run].
    2:{ left. eexists _, _. split; [done|]. by split. }
    right. assert (Hfr := choose_fresh h (blocks s)). set (l := choose h (blocks s)) in *. clearbody l.
    set (s0 := log _ _).
    rewrite run_catch, run_bind, run_bind. cbn [act run exec].
    assert (H0b : blocks s0 !! l = Some (mkB a (BCb t) HNone ORaw)) by (cbn; by rewrite lookup_insert).
    rewrite H0b. cbn [b_hdr b_obj b_ty]. rewrite bool_decide_eq_true_2 by done.
    set (b := mkB a (BCb t) (HCb t None) ORaw).
    set (s1 := set_blocks _ _).
    assert (H1b : blocks s1 = <[l := b]> (blocks s)) by (cbn; by rewrite insert_insert).
    assert (H1w : wraps s1 = wraps s) by done. assert (H1x : exts s1 = exts s) by done.
    exists l, b, s1. clearbody s1. clear s0 H0b. split_and!; try done.
    { split; [by rewrite H1b, lookup_insert|done|cbn; by rewrite bool_decide_eq_true_2|].
      intros j. rewrite H1w. apply eq_None_not_Some. intros HH. apply HM in HH as [? ?]. congruence. }
    { intros l' i' Hi'. rewrite H1w in Hi'. rewrite H1b. at_norm. case_decide; [by eexists|]. by apply (HM l' i'). }
    cbn [run]. rewrite run_bind. destruct (run (tp_cons _ _ _ _ _) s1) as [u s2|e s2| |]; [| |done|done].
    + intros o Ho. unfold act; cbn [run exec]. rewrite Ho. cbn [b_hdr set_obj b run]. eexists. split; [done|]. done.
    + intros Ho. cbn. rewrite Ho. cbn. rewrite bool_decide_eq_true_2, Nat.eqb_refl by done. cbn. eexists. split; [done|]. done.
Qed.

(** A new owned object. *)
Definition fresh (k : cls) (a : A) (t : ty) (x : c_val K) (l : loc) (B : bmap) (W : wmap) : Prop :=
  exists b v B1, B = <[l := b]> B1 /\ B1 !! l = None /\ block_ok k l t v a b /\ c_rep K t l v x B1 W.

(** The result of a creation that touches nothing else. *)
Definition created k a t s (P : c_val K -> Prop) (r : outcome E loc) : Prop :=
  match r with
  | ORet l s' => exists x B W, P x /\ fresh k a t x l B W /\ adds s s' B W
  | OThrow _ s' => same s s'
  | _ => False
  end.

Lemma create_plain k a t x s (P : c_val K -> Prop) :
  mem_ok s -> (k = Ind -> t = tT E) ->
  (forall l b s1, storage s1 l b t -> mem_ok s1 -> blocks s1 = <[l := b]> (blocks s) -> wraps s1 = wraps s ->
     blocks s !! l = None ->
     match run (tp_cons T a t l x) s1 with
     | ORet _ s' => exists x b' B' W', P x /\ filled l b b' t x B' W' /\ changed s1 s' {[ l := b ]} ∅ (<[l := b']> B') W'
     | OThrow _ s' => changed s1 s' ∅ ∅ ∅ ∅
     | _ => False
     end) ->
  created k a t s P (run (create k a t x) s).
Proof.
  intros HM HT Hcons. destruct (create_run k a t x s HM HT) as [(e & s' & -> & Hs)|(l & b & s1 & Hfr & Hst & HM1 & H1b & H1w & H1x & Hrun)]; [done|].
  specialize (Hcons l b s1 Hst HM1 H1b H1w Hfr).
  destruct (run (tp_cons _ _ _ _ _) s1) as [u s2|e s2| |]; [| |done|done].
  - destruct Hcons as (v & b' & B' & W' & HP & (bv & -> & Hrep) & [C1 C2 C3 C4 C5]).
    assert (HBl : B' !! l = None) by apply (ho_dom T K HO _ _ _ _ _ _ Hrep).
    destruct (Hrun (OLive t bv)) as (s3 & -> & F1 & F2 & F3).
    { rewrite C1. at_norm. by rewrite decide_True. }
    exists v, (<[l := mkB a (kbty k t) (khdr k t l) (OLive t bv)]> B'), W'. split_and!; [done| |].
    { eexists _, bv, B'. split_and!; [done|done| |done]. repeat split; cbn; done. }
    rewrite H1b in C1, C4. rewrite H1w in C2, C5.
    split; [rewrite F1, C1|rewrite F2, C2|congruence| |].
    + clear. map_solve.
    + clear. map_solve.
    + clear - C4 Hfr. map_solve.
    + clear - C5. map_solve.
  - apply changed_none in Hcons as [C1 C2 C3]. destruct Hrun as (s3 & -> & F1 & F2 & F3).
    { rewrite C1, H1b. by rewrite lookup_insert. }
    split; [rewrite F1, C1, H1b|congruence|congruence]. by apply delete_insert.
Qed.

Lemma create_make k a t c s :
  (exists x, c_make K t a c x) -> mem_ok s -> (k = Ind -> t = tT E) -> created k a t s (c_make K t a c) (run (create k a t (AArgs c)) s).
Proof. intros Hc HM HT. apply create_plain; [done|done|]. intros l b s1 Hst HM1 _ _ _. by apply (ho_make T K HO). Qed.

Lemma object_grow s s1 l b o bo t x B W :
  object s o bo t x B W -> blocks s !! l = None -> blocks s1 = <[l := b]> (blocks s) -> wraps s1 = wraps s ->
  object s1 o bo t x B W /\ B !! l = None /\ o <> l.
Proof.
  intros [H1 H2 H3 H4] Hl Hb Hw.
  assert (B !! l = None) by (destruct (sub_at _ _ l H3); congruence). split_and!; [|done|congruence].
  split; [done| | |by rewrite Hw].
  - rewrite Hb, lookup_insert_ne by congruence. done.
  - rewrite Hb. etrans; [done|by apply insert_subseteq].
Qed.

Lemma create_copy k a t c o bo x B W s :
  c <> RVal -> mem_ok s -> (k = Ind -> t = tT E) -> object s o bo t x B W ->
  created k a t s (c_copy K t a x) (run (create k a t (ARef c (RBlk o))) s).
Proof.
  intros Hc HM HT Hob. apply create_plain; [done|done|]. intros l b s1 Hst HM1 Hb1 Hw1 Hfr.
  destruct (object_grow s s1 l b _ _ _ _ _ _ Hob Hfr Hb1 Hw1) as (Hob1 & HBl & _).
  by apply (ho_copy T K HO a t l b c o bo x B W s1).
Qed.

Lemma create_move k a t o bo x B W s :
  mem_ok s -> (k = Ind -> t = tT E) -> object s o bo t x B W -> enclosed s o B W ->
  match run (create k a t (ARef RVal (RBlk o))) s with
  | ORet l s' => exists x' B1 W1 y bo' B2 W2, c_move K t a x x' y /\ fresh k a t x' l B1 W1 /\
      filled o bo bo' t y B2 W2 /\ B1 ##ₘ <[o := bo']> B2 /\ W1 ##ₘ W2 /\
      changed s s' (<[o := bo]> B) W (B1 ∪ <[o := bo']> B2) (W1 ∪ W2)
  | OThrow _ s' => exists y bo' B2 W2, (y = x /\ bo' = bo /\ B2 = B /\ W2 = W \/ c_movef K t x y) /\ filled o bo bo' t y B2 W2 /\
      changed s s' (<[o := bo]> B) W (<[o := bo']> B2) W2
  | _ => False
  end.
Proof.
  intros HM HT Hob Hen.
  assert (Hid : forall s', same s s' -> exists y bo' B2 W2, (y = x /\ bo' = bo /\ B2 = B /\ W2 = W \/ c_movef K t x y) /\ filled o bo bo' t y B2 W2 /\
      changed s s' (<[o := bo]> B) W (<[o := bo']> B2) W2).
  { intros s' [I1 I2 I3]. exists x, bo, B, W. split_and!; [by left| |].
    - destruct Hob as [(v & Hv & Hrep) _ _ _]. exists v. split; [|done]. destruct bo. cbn in *. by subst.
    - destruct Hob as [_ Hbo HB HW]. split; [rewrite I1|rewrite I2|done| |].
      + clear - HB Hbo. map_solve.
      + clear - HW. map_solve.
      + clear. map_solve.
      + clear. map_solve. }
  destruct (create_run k a t (ARef RVal (RBlk o)) s HM HT) as [(e & s' & -> & Hs)|(l & b & s1 & Hfr & Hst & HM1 & H1b & H1w & H1x & Hrun)]; [by apply Hid|].
  destruct (object_grow s s1 l b _ _ _ _ _ _ Hob Hfr H1b H1w) as (Hob1 & HBl & Hol).
  assert (Hcons := ho_move T K HO a t l b o bo x B W s1 HM1 Hst Hob1 HBl).
  feed specialize Hcons.
  { intros l' i Hl' Hi. rewrite H1w in Hi. by apply Hen. }
  destruct (run (tp_cons _ _ _ _ _) s1) as [u s2|e s2| |]; [| |done|done].
  - destruct Hcons as (x' & b' & B1 & W1 & y & bo' & B2 & W2 & HP & (bv & -> & Hrep) & Hfo & D1 & D2 & [C1 C2 C3 C4 C5]).
    assert (HB1l : B1 !! l = None) by apply (ho_dom T K HO _ _ _ _ _ _ Hrep).
    destruct (Hrun (OLive t bv)) as (s3 & -> & F1 & F2 & F3).
    { rewrite C1. at_norm. by rewrite decide_True. }
    exists x', (<[l := mkB a (kbty k t) (khdr k t l) (OLive t bv)]> B1), W1, y, bo', B2, W2. split_and!; [done| |done| |done|].
    { eexists _, bv, B1. split_and!; [done|done| |done]. repeat split; cbn; done. }
    { clear - D1. map_solve. }
    rewrite H1b in C1, C4. rewrite H1w in C2, C5.
    split; [rewrite F1, C1|rewrite F2, C2|congruence| |].
    + clear - D1. map_solve.
    + done.
    + clear - C4 Hfr D1 Hol HBl. map_solve.
    + done.
  - destruct Hcons as (y & bo' & B2 & W2 & HP & Hfo & [C1 C2 C3 C4 C5]).
    rewrite H1b in C1, C4. rewrite H1w in C2, C5.
    assert (HB2l : B2 !! l = None).
    { apply (fun Q => dis_at _ _ l Q) in C4. at_norm. rewrite HBl in C4.
      rewrite decide_False in C4 by done. rewrite decide_False, decide_True in C4 by done. by destruct C4. }
    destruct Hrun as (s3 & -> & F1 & F2 & F3).
    { rewrite C1. at_norm. rewrite HB2l, HBl. rewrite !decide_False, decide_True by done. done. }
    exists y, bo', B2, W2. split_and!; [by right|done|].
    split; [rewrite F1, C1|congruence|congruence| |done].
    + clear - Hol HB2l HBl Hfr C4. map_solve.
    + clear - C4 Hol HBl Hfr. map_solve.
Qed.

End contract.
