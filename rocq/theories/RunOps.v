(** * Effects of the program fragments out of which the member functions are
    built: constructor bodies and the tails of the assignment operators. *)

From stdpp Require Import base gmap list.
From Verif Require Import Lang Common Client Spec Rep Effect RunLemmas.

Section ops.
Context {E : Env} (k : cls).
Notation A := (eA E).
Notation V := (eV E).
Notation viewmap := (gmap wl (option (loc * ty * V) * A)).
Implicit Types s : store E.
Implicit Types B : gmap loc (block E).
Implicit Types W : gmap wl (wrapper E).
Implicit Types X : gmap nat (ty * V).
Implicit Types O : list resp.
Implicit Types tr : list (event E).
Implicit Types ω : gmap wl (option (loc * ty * V) * A).
Implicit Types a ax ay : A.
Implicit Types g : carg E.
Implicit Types xa : arg E.

(** [p] has effect [P] from [s]. *)
Definition effect (P : vres E -> Prop) (p : prog E (obs E)) s : Prop :=
  exists r, P r /\ matches k s r (run p s).

Lemma effect_noexcept b P p s :
  ~ P VTerm -> effect P (quiet p) s -> effect (vnoexcept b P) (quiet (noexcept_if b p)) s.
Proof.
  intros Hnt (r & HP & Hm). unfold effect, quiet in *. rewrite run_bind in *. rewrite run_noexcept.
  destruct b; [|simpl; exists r; by destruct (run p s)].
  destruct r as [o ω X evs|e ω X evs|]; simpl in Hm.
  - destruct Hm as (s' & Hrun & Hrest). exists (VRet o ω X evs). split; [left; eauto 10|].
    destruct (run p s); simplify_eq/=. eauto.
  - destruct Hm as (s' & Hrun & _ & _ & _ & Hin). exists VTerm.
    split; [right; eauto 10|]. destruct (run p s); simplify_eq/=. eauto.
  - done.
Qed.

(** A normal return is not affected by [noexcept]. *)
Lemma run_noexcept_ret {R : Type} b (p : prog E R) s x s' :
  run p s = ORet x s' -> run (noexcept_if b p) s = ORet x s'.
Proof. intros H. by rewrite run_noexcept, H. Qed.

Lemma vref_deref (ω : viewmap) c y l t v a :
  ω !! y = Some (Some (l, t, v), a) -> vref (GDeref c y) ω = Some (ARef c (RBlk l)).
Proof. intros Hy. simpl. by rewrite Hy. Qed.

Lemma arg_pre_deref (ω : viewmap) X c y l t v a :
  ω !! y = Some (Some (l, t, v), a) -> arg_pre (GDeref c y) (abs_spec ω X) = true.
Proof. intros Hy. simpl. unfold engaged. simpl. by rewrite lookup_absv, Hy. Qed.

Lemma owns_none (ω : viewmap) w : ω !! w = None -> owns_nothing ω w.
Proof. intros Hw o a H. congruence. Qed.

Lemma owns_null (ω : viewmap) w a : ω !! w = Some (None, a) -> owns_nothing ω w.
Proof. intros Hw o a' H. congruence. Qed.

Lemma newb_ok (a : A) t l (v : V) : (k = Ind -> t = tT E) -> block_ok k l t v a (newb k a t l v).
Proof. intros Ht. by repeat split. Qed.

Lemma cons_vals_irr a t (xa : arg E) B W X O tr W' O' tr' :
  cons_vals a t xa (mkS B W X O tr) = cons_vals a t xa (mkS B W' X O' tr').
Proof. by destruct xa as [|? []]. Qed.

Lemma upd_src_irr (xa : arg E) v B W X O tr W' O' tr' :
  blocks (upd_src xa v (mkS B W X O tr)) = blocks (upd_src xa v (mkS B W' X O' tr')) /\
  exts (upd_src xa v (mkS B W X O tr)) = exts (upd_src xa v (mkS B W' X O' tr')).
Proof. by destruct xa as [|[] []]. Qed.

(** Body of a constructor that allocates and constructs; run when the object
    [w] has been entered with allocator [a] and some pointer [p]. *)
Lemma ctor_tail B W X O tr ω w p a t g xa :
  Rep k B W ω -> ω !! w = None -> (k = Ind -> t = tT E) ->
  vref g ω = Some xa -> arg_pre g (abs_spec ω X) = true ->
  exists r, vconstruct k w a t g ω X r /\
  matches k (mkS B W X O tr) r
   (run (quiet (catch (bind (cons_prog k a t xa) (fun l => act (PWriteP w (Some l))))
                  (fun e => bind (act (PDelW w)) (fun _ => Throw e))))
    (mkS B (<[w := mkW p a]> W) X O tr)).
Proof.
  intros HR Hw Ht Hg Hpre. unfold quiet. rewrite run_bind, run_catch, run_bind.
  assert (HW : W !! w = None) by (by eapply rep_lookup_none).
  destruct (cons_vals_ok k B W X O tr ω g a t HR Hpre) as
    (xa' & v & v1 & v2 & Hg' & Hcv & Hmk).
  assert (xa' = xa) as -> by congruence.
  rewrite (cons_vals_irr _ _ _ _ _ _ _ _ (<[w:=mkW p a]> W) O tr) in Hcv.
  pose proof (fun v => proj1 (upd_src_irr xa v B W X O tr (<[w:=mkW p a]> W) O tr)) as Hb.
  pose proof (fun v => proj2 (upd_src_irr xa v B W X O tr (<[w:=mkW p a]> W) O tr)) as He.
  destruct (rep_upd_src k B W X O tr ω g xa v1 HR Hg) as [HR1 HX1].
  destruct (rep_upd_src k B W X O tr ω g xa v2 HR Hg) as [HR2 HX2].
  rewrite Hb in HR1, HR2. rewrite He in HX1, HX2.
  pose proof (cons_prog_run k _ _ _ _ _ _ _ Hcv) as Hco.
  inversion Hco as [e o Hin Hrun|e l o Hin Hl Hrun|l o Hl Hrun]; clear Hco; cbn [blocks orc] in *.
  - eexists. split.
    { do 4 eexists. split; [apply cres_nomem|]. reflexivity. }
    ex. rewrite lookup_insert. ex. eexists. split; [reflexivity|].
    cbn [blocks wraps exts trc orc]. rewrite delete_insert by done. done.
  - eexists. split.
    { do 4 eexists. split; [eapply (cres_fail _ _ _ _ _ _ _ l); try done; by eapply fresh_none|].
      reflexivity. }
    ex. rewrite lookup_insert. ex. eexists. split; [reflexivity|].
    cbn [blocks wraps exts trc orc]. rewrite delete_insert by done. done.
  - eexists. split.
    { do 4 eexists. split; [eapply (cres_ok _ _ _ _ _ _ l); try done; by eapply fresh_none|].
      reflexivity. }
    ex. rewrite lookup_insert. ex. eexists. split; [reflexivity|].
    cbn [blocks wraps exts trc orc]. rewrite insert_insert, Hw. split; [|done].
    eapply rep_fill; [done| |by rewrite upd_src_dom|by apply newb_ok].
    by apply owns_none, vset_none.
Qed.

(** Constructing into a wrapper that exists and holds nothing (value
    assignment to a valueless object). *)
Lemma fill_tail B W X O tr ω w a t g xa :
  Rep k B W ω -> ω !! w = Some (None, a) -> (k = Ind -> t = tT E) ->
  vref g ω = Some xa -> arg_pre g (abs_spec ω X) = true ->
  effect (vconstruct k w a t g ω X)
    (quiet (bind (cons_prog k a t xa) (fun l => act (PWriteP w (Some l)))))
    (mkS B W X O tr).
Proof.
  intros HR Hw Ht Hg Hpre. unfold effect, quiet. rewrite run_bind, run_bind.
  pose proof (rep_lookup _ _ _ _ _ _ _ HR Hw) as HW.
  destruct (cons_vals_ok k B W X O tr ω g a t HR Hpre) as
    (xa' & v & v1 & v2 & Hg' & Hcv & Hmk).
  assert (xa' = xa) as -> by congruence.
  destruct (rep_upd_src k B W X O tr ω g xa v1 HR Hg) as [HR1 HX1].
  destruct (rep_upd_src k B W X O tr ω g xa v2 HR Hg) as [HR2 HX2].
  pose proof (cons_prog_run k _ _ _ _ _ _ _ Hcv) as Hco.
  inversion Hco as [e o Hin Hrun|e l o Hin Hl Hrun|l o Hl Hrun]; clear Hco; cbn [blocks orc] in *.
  - eexists. split.
    { do 4 eexists. split; [apply cres_nomem|]. reflexivity. }
    eexists. split; [reflexivity|]. done.
  - eexists. split.
    { do 4 eexists. split; [eapply (cres_fail _ _ _ _ _ _ _ l); try done; by eapply fresh_none|].
      reflexivity. }
    eexists. split; [reflexivity|]. done.
  - eexists. split.
    { do 4 eexists. split; [eapply (cres_ok _ _ _ _ _ _ l); try done; by eapply fresh_none|].
      reflexivity. }
    ex. rewrite HW. ex. eexists. split; [reflexivity|].
    cbn [blocks wraps exts trc orc]. rewrite Hw. split; [|done].
    eapply rep_fill; [done| |by rewrite upd_src_dom|by apply newb_ok].
    intros o' a' Ho'. pose proof (vset_owned g v1 ω w) as Hv. rewrite Ho', Hw in Hv.
    simplify_eq/=. by destruct o'.
Qed.

(** [reset(); p = tmp;] and allocator propagation, after a successful or failed
    construction of [tmp]. *)
Lemma assign_tail B W X O tr ω x y ox ax oy ay (b : bool) c t xa :
  Rep k B W ω -> x <> y -> ω !! x = Some (ox, ax) -> ω !! y = Some (Some oy, ay) ->
  (k = Ind -> t = tT E) -> vref (GDeref c y) ω = Some xa ->
  effect (vconstruct k x (if b then ay else ax) t (GDeref c y) ω X)
    (quiet (bind (bind (cons_prog k (if b then ay else ax) t xa) (fun tmp =>
                  bind (reset_prog k x) (fun _ => act (PWriteP x (Some tmp)))))
            (fun _ => if b then bind (act (PReadA y)) (fun a => act (PWriteA x a)) else Ret tt)))
    (mkS B W X O tr).
Proof.
  intros HR Hxy Hx Hy Ht Hg. unfold effect, quiet. rewrite !run_bind.
  pose proof (rep_lookup _ _ _ _ _ _ _ HR Hx) as HWx.
  pose proof (rep_lookup _ _ _ _ _ _ _ HR Hy) as HWy.
  destruct oy as [[ly ty'] vy].
  pose proof (arg_pre_deref ω X c y _ _ _ _ Hy) as Hpre.
  destruct (cons_vals_ok k B W X O tr ω _ (if b then ay else ax) t HR Hpre) as
    (xa' & v & v1 & v2 & Hg' & Hcv & Hmk).
  assert (xa' = xa) as -> by congruence.
  destruct (rep_upd_src k B W X O tr ω _ xa v1 HR Hg) as [HR1 HX1].
  destruct (rep_upd_src k B W X O tr ω _ xa v2 HR Hg) as [HR2 HX2].
  pose proof (cons_prog_run k _ _ _ _ _ _ _ Hcv) as Hco.
  inversion Hco as [e o Hin Hrun|e l o Hin Hl Hrun|l o Hl Hrun]; clear Hco; cbn [blocks orc] in *.
  - eexists. split.
    { do 4 eexists. split; [apply cres_nomem|]. reflexivity. }
    eexists. split; [reflexivity|]. done.
  - eexists. split.
    { do 4 eexists. split; [eapply (cres_fail _ _ _ _ _ _ _ l); try done; by eapply fresh_none|].
      reflexivity. }
    eexists. split; [reflexivity|]. done.
  - eexists. split.
    { do 4 eexists. split; [eapply (cres_ok _ _ _ _ _ _ l); try done; by eapply fresh_none|].
      reflexivity. }
    assert (Hx1 : vset (GDeref c y) v1 ω !! x = Some (ox, ax)).
    { rewrite vset_lookup_ne; [done|]. intros ? ? [=]. congruence. }
    set (B1 := blocks (upd_src xa v1 (mkS B W X O tr))) in *.
    assert (Hl1 : B1 !! l = None) by (unfold B1; by rewrite upd_src_dom).
    rewrite run_bind.
    rewrite (reset_prog_run k x ox ax).
    2:{ exact HWx. }
    2:{ cbn [blocks]. intros l' t' v' ->.
        destruct (rep_own _ _ _ _ HR1 _ _ _ _ _ Hx1) as (bb & Hbb & Hok).
        exists bb. split; [|done]. rewrite lookup_insert_ne; [done|]. congruence. }
    ex. rewrite lookup_insert. ex. rewrite insert_insert.
    assert (HRf : forall a' : A, a' = (if b then ay else ax) ->
              Rep k (reset_blocks ox (<[l:=newb k (if b then ay else ax) t l v]> B1))
                (<[x:=mkW (PLoc l) a']> W)
                (<[x:=(Some (l, t, v), a')]> (vset (GDeref c y) v1 ω))).
    { intros a' ->.
      assert (HRr : Rep k (reset_blocks ox B1) (<[x:=mkW PNull ax]> W)
                      (<[x:=(None, ax)]> (vset (GDeref c y) v1 ω))).
      { destruct ox as [[[lx tx] vx]|]; simpl.
        - by eapply rep_clear.
        - eapply rep_null; [done|]. by eapply owns_null. }
      assert (Hlr : reset_blocks ox B1 !! l = None).
      { destruct ox as [[[lx tx] vx]|]; simpl; [|done]. by rewrite lookup_delete_None; right. }
      replace (reset_blocks ox (<[l:=newb k (if b then ay else ax) t l v]> B1))
        with (<[l:=newb k (if b then ay else ax) t l v]> (reset_blocks ox B1)).
      2:{ destruct ox as [[[lx tx] vx]|]; simpl; [|done].
          rewrite delete_insert_ne; [done|]. intros <-.
          destruct (rep_own _ _ _ _ HR1 _ _ _ _ _ Hx1) as (bb & Hbb & _). congruence. }
      pose proof (rep_fill k _ _ _ x l t v _ _ HRr
        ltac:(eapply owns_null; apply lookup_insert) Hlr (newb_ok (if b then ay else ax) t l v Ht)) as HRf.
      by rewrite !insert_insert in HRf. }
    destruct b; ex.
    + rewrite lookup_insert_ne by done. rewrite HWy. ex.
      rewrite lookup_insert. ex. rewrite insert_insert.
      eexists. split; [reflexivity|]. cbn [blocks wraps exts trc orc to_wrapper snd]. rewrite Hx.
      split; [by apply HRf|]. split; [done|]. by rewrite <- app_assoc.
    + eexists. split; [reflexivity|]. cbn [blocks wraps exts trc orc to_wrapper snd]. rewrite Hx.
      split; [by apply HRf|]. split; [done|]. by rewrite <- app_assoc.
Qed.

(** [reset();] and allocator propagation. *)
Lemma reset_tail B W X O tr ω x y ox ax oy ay (b : bool) :
  Rep k B W ω -> x <> y -> ω !! x = Some (ox, ax) -> ω !! y = Some (oy, ay) ->
  effect (vquiet (<[x := (None, if b then ay else ax)]> ω) X (reset_ev k ox ax))
    (quiet (bind (reset_prog k x)
            (fun _ => if b then bind (act (PReadA y)) (fun a => act (PWriteA x a)) else Ret tt)))
    (mkS B W X O tr).
Proof.
  intros HR Hxy Hx Hy. unfold effect, quiet. rewrite !run_bind.
  pose proof (rep_lookup _ _ _ _ _ _ _ HR Hx) as HWx.
  pose proof (rep_lookup _ _ _ _ _ _ _ HR Hy) as HWy.
  rewrite (reset_prog_run k x ox ax).
  2:{ exact HWx. }
  2:{ cbn [blocks]. intros l' t' v' ->. by apply (rep_own _ _ _ _ HR _ _ _ _ _ Hx). }
  assert (HRr : forall a', Rep k (reset_blocks ox B) (<[x:=mkW PNull a']> W) (<[x:=(None, a')]> ω)).
  { intros a'. destruct ox as [[[lx tx] vx]|]; simpl.
    - by eapply rep_clear.
    - eapply rep_null; [done|]. by eapply owns_null. }
  eexists. split; [reflexivity|].
  destruct b; ex.
  - rewrite lookup_insert_ne by done. rewrite HWy. ex. rewrite lookup_insert. ex.
    rewrite insert_insert. eexists. split; [reflexivity|]. split; [|done]. apply HRr.
  - eexists. split; [reflexivity|]. split; [|done]. apply HRr.
Qed.

(** Stealing in move assignment: [swap(p_, other.p_); other.reset();]. *)
Lemma steal_tail B W X O tr ω x y ox ax oy ay (b : bool) :
  Rep k B W ω -> x <> y -> ω !! x = Some (ox, ax) -> ω !! y = Some (Some oy, ay) ->
  a_res E ax = a_res E ay ->
  effect (vquiet (<[x := (Some oy, if b then ay else ax)]> (<[y := (None, ay)]> ω)) X
                 (reset_ev k ox ay))
    (quiet (bind (bind (swap_p x y) (fun _ => reset_prog k y))
            (fun _ => if b then bind (act (PReadA y)) (fun a => act (PWriteA x a)) else Ret tt)))
    (mkS B W X O tr).
Proof.
  intros HR Hxy Hx Hy Hres. unfold effect, quiet. rewrite !run_bind.
  pose proof (rep_lookup _ _ _ _ _ _ _ HR Hx) as HWx.
  pose proof (rep_lookup _ _ _ _ _ _ _ HR Hy) as HWy.
  destruct oy as [[ly ty'] vy].
  assert (Hsw : run (swap_p x y) (mkS B W X O tr) =
          ORet tt (mkS B (<[y := to_wrapper (ox, ay)]>
                         (<[x := to_wrapper (Some (ly, ty', vy), ax)]> W)) X O tr)).
  { unfold swap_p. ex. rewrite HWx.
    destruct ox as [[[lx tx] vx]|]; ex; unfold to_wrapper at 1; ex; rewrite HWy; ex;
      unfold to_wrapper at 1; ex;
      rewrite HWx; ex; rewrite lookup_insert_ne by done; rewrite HWy; ex; done. }
  rewrite Hsw. clear Hsw.
  pose proof (rep_swap _ _ _ _ _ _ _ _ _ _ ax ay HR Hx Hy Hxy
                (fun _ => Hres) (fun _ => eq_sym Hres)) as HR1.
  set (W1 := <[y:=to_wrapper (ox, ay)]> _) in *.
  set (ω1 := <[y:=(ox, ay)]> _) in *.
  assert (Hy1 : ω1 !! y = Some (ox, ay)) by apply lookup_insert.
  assert (Hx1 : ω1 !! x = Some (Some (ly, ty', vy), ax)).
  { unfold ω1. rewrite lookup_insert_ne by done. apply lookup_insert. }
  rewrite (reset_prog_run k y ox ay).
  2:{ cbn [wraps]. by apply lookup_insert. }
  2:{ cbn [blocks]. intros l' t' v' ->. by apply (rep_own _ _ _ _ HR1 _ _ _ _ _ Hy1). }
  assert (HRr : Rep k (reset_blocks ox B) (<[y:=mkW PNull ay]> W1) (<[y:=(None, ay)]> ω1)).
  { destruct ox as [[[lx tx] vx]|]; simpl.
    - by eapply rep_clear.
    - eapply rep_null; [done|]. by eapply owns_null. }
  assert (Hω : <[y:=(None, ay)]> ω1 = <[x:=(Some (ly, ty', vy), ax)]> (<[y:=(None, ay)]> ω)).
  { unfold ω1. rewrite insert_insert, insert_commute by done. done. }
  eexists. split; [reflexivity|].
  destruct b; ex.
  - rewrite lookup_insert. ex. rewrite lookup_insert_ne by done.
    unfold W1. rewrite lookup_insert_ne by done. rewrite lookup_insert. ex.
    eexists. split; [reflexivity|]. split; [|done]. cbn [blocks wraps exts trc].
    pose proof (rep_seta k _ _ _ x (Some (ly, ty', vy)) ax ay HRr) as HRf.
    rewrite Hω in HRf. rewrite lookup_insert in HRf. rewrite insert_insert in HRf.
    by apply HRf.
  - eexists. split; [reflexivity|]. split; [|done]. rewrite <- Hω. done.
Qed.

(** Stealing in move construction. *)
Lemma rep_steal_ctor B W ω w y oy ay a :
  Rep k B W ω -> ω !! w = None -> ω !! y = Some (oy, ay) ->
  (is_Some oy -> a_res E a = a_res E ay) ->
  Rep k B (<[w := to_wrapper (oy, a)]> (<[y := mkW PNull ay]> W))
          (<[w := (oy, a)]> (<[y := (None, ay)]> ω)).
Proof.
  intros HR Hw Hy Hres. assert (w <> y) by congruence.
  destruct oy as [[[l t] v]|].
  - eapply rep_xfer; try done; [by apply owns_none|]. by apply Hres.
  - eapply rep_null.
    + eapply rep_null; [done|]. by eapply owns_null.
    + apply owns_none. by rewrite lookup_insert_ne.
Qed.

(** The three kinds of swap. *)
Lemma swap_run (nx : bool) B W X O tr ω x y ox ax oy ay :
  (forall a b, a_eqb E a b = true -> a_res E a = a_res E b) ->
  Rep k B W ω -> ω !! x = Some (ox, ax) -> ω !! y = Some (oy, ay) ->
  pocs E || a_eqb E ax ay = true ->
  effect (vswap x y ω X)
    (quiet (noexcept_if nx
     (if pocs E then bind (swap_a x y) (fun _ => swap_p x y)
      else bind (act (PReadA x)) (fun a1 => bind (act (PReadA y)) (fun a2 =>
           if a_eqb E a1 a2 then swap_p x y else unreachable)))))
    (mkS B W X O tr).
Proof.
  intros Har HR Hx Hy Hpre. unfold effect, quiet.
  pose proof (rep_lookup _ _ _ _ _ _ _ HR Hx) as HWx.
  pose proof (rep_lookup _ _ _ _ _ _ _ HR Hy) as HWy.
  assert (Hp : forall W1 ax1 ay1,
            W1 !! x = Some (to_wrapper (ox, ax1)) -> W1 !! y = Some (to_wrapper (oy, ay1)) ->
            run (swap_p x y) (mkS B W1 X O tr) =
            ORet tt (mkS B (<[y := to_wrapper (ox, ay1)]> (<[x := to_wrapper (oy, ax1)]> W1)) X O tr)).
  { intros W1 ax1 ay1 H1 H2. unfold swap_p. ex. rewrite H1.
    destruct (decide (x = y)) as [<-|Hne].
    - simplify_eq. destruct ox as [[[lx tx] vx]|]; ex; unfold to_wrapper at 1; ex;
        rewrite H1; ex; unfold to_wrapper at 1; ex; rewrite H1; ex; rewrite lookup_insert; ex;
        rewrite !insert_insert; done.
    - destruct ox as [[[lx tx] vx]|], oy as [[[ly ty'] vy]|]; ex; unfold to_wrapper at 1; ex;
        rewrite H2; ex; unfold to_wrapper at 1; ex; rewrite H1; ex;
        rewrite lookup_insert_ne by done; rewrite H2; ex; done. }
  assert (Hswap : forall ax1 ay1,
     (is_Some oy -> a_res E ax1 = a_res E ay) -> (is_Some ox -> a_res E ay1 = a_res E ax) ->
     (x = y -> ax1 = ay /\ ay1 = ax) ->
     Rep k B (<[y := to_wrapper (ox, ay1)]> (<[x := to_wrapper (oy, ax1)]> W))
             (<[y := (ox, ay1)]> (<[x := (oy, ax1)]> ω))).
  { intros ax1 ay1 H1 H2 H3. destruct (decide (x = y)) as [<-|Hne].
    - destruct (H3 eq_refl) as [-> ->]. simplify_eq. rewrite !insert_insert.
      rewrite !insert_id by done. done.
    - by eapply rep_swap. }
  unfold vswap. rewrite Hx, Hy. rewrite run_bind.
  destruct (pocs E); cbn [orb] in Hpre.
  - eexists. split; [reflexivity|].
    assert (Ha : run (swap_a x y) (mkS B W X O tr) =
       ORet tt (mkS B (<[y := to_wrapper (oy, ax)]> (<[x := to_wrapper (ox, ay)]> W)) X O tr)).
    { unfold swap_a. ex. rewrite HWx. ex. rewrite HWy. ex. rewrite HWx. ex.
      destruct (decide (x = y)) as [<-|Hne].
      - simplify_eq. rewrite lookup_insert. ex. rewrite !insert_insert. done.
      - rewrite lookup_insert_ne by done. rewrite HWy. ex. done. }
    assert (Hrun : run (bind (swap_a x y) (fun _ => swap_p x y)) (mkS B W X O tr) =
       ORet tt (mkS B (<[y := to_wrapper (ox, ax)]> (<[x := to_wrapper (oy, ay)]> W)) X O tr)).
    { rewrite run_bind, Ha.
      destruct (decide (x = y)) as [<-|Hne].
      - simplify_eq. rewrite insert_insert.
        rewrite (Hp _ ax ax) by apply lookup_insert. rewrite !insert_insert. done.
      - rewrite (Hp _ ay ax); [|rewrite lookup_insert_ne by done; apply lookup_insert|apply lookup_insert].
        rewrite (insert_commute _ x y) by done. rewrite !insert_insert.
        done. }
    rewrite (run_noexcept_ret nx _ _ _ _ Hrun). ex.
    eexists. split; [reflexivity|]. split; [|done]. by apply Hswap.
  - eexists. split; [reflexivity|].
    assert (Hrun : run (bind (act (PReadA x)) (fun a1 => bind (act (PReadA y)) (fun a2 =>
           if a_eqb E a1 a2 then swap_p x y else unreachable))) (mkS B W X O tr) =
       ORet tt (mkS B (<[y := to_wrapper (ox, ay)]> (<[x := to_wrapper (oy, ax)]> W)) X O tr)).
    { ex. rewrite HWx. ex. rewrite HWy. ex. unfold to_wrapper at 1 2; ex. rewrite Hpre.
      by apply Hp. }
    rewrite (run_noexcept_ret nx _ _ _ _ Hrun). ex.
    eexists. split; [reflexivity|]. split; [|done]. apply Hswap.
    + intros _. by apply Har.
    + intros _. symmetry. by apply Har.
    + intros <-. by simplify_eq.
Qed.

(** Precondition on liveness, in terms of views. *)
Lemma pre_dead ω X w : negb (live w (abs_spec ω X)) = true -> ω !! w = None.
Proof.
  unfold live; simpl. rewrite lookup_absv. intros H. apply negb_true_iff, bool_decide_eq_false in H.
  destruct (ω !! w); [|done]. exfalso. apply H. simpl. eauto.
Qed.
Lemma pre_live ω X w : live w (abs_spec ω X) = true -> exists o a, ω !! w = Some (o, a).
Proof.
  unfold live; simpl. rewrite lookup_absv. intros H. apply bool_decide_eq_true in H as [? H].
  destruct (ω !! w) as [[o a]|]; [eauto|done].
Qed.
Lemma pre_engaged ω X w :
  engaged w (abs_spec ω X) = true -> exists l t v a, ω !! w = Some (Some (l, t, v), a).
Proof.
  unfold engaged; simpl. rewrite lookup_absv.
  destruct (ω !! w) as [[[[[l t] v]|] a]|]; simpl; try done. eauto 10.
Qed.

End ops.
