(** * SortedList as a SortedKeyList with the identity key (proofs) *)
From Verif Require Import PyBase BaseFacts Spec SpecFacts SliceFacts Model IndexFacts Shape CoreFacts VtFacts KeyFacts KeyLook.
From Coq Require Import Sorting.Permutation Sorting.Sorted.
Local Unset Implicit Arguments.

Definition ident {V} (v : V) : res V := Ok v.
Definition embed {V} (c : core V V) : skl V V := mkskl c (lists c).

(** [m'] on the embedded state does what [m] does. *)
Definition SimAt {V A} (c : core V V) (m : M (core V V) A) (m' : M (skl V V) A) : Prop :=
  m' (embed c) = (fst (m c), embed (snd (m c))).

Ltac brute :=
  repeat (first
    [ reflexivity
    | progress ev
    | match goal with
      | |- context [rbind ?x _] => let E := fresh "E" in destruct x eqn:E
      | |- context [if ?b then _ else _] => let E := fresh "E" in destruct b eqn:E
      | |- context [match ?x with Ok _ => _ | Err _ => _ end] =>
          lazymatch x with
          | context [match _ with _ => _ end] => fail
          | _ => let E := fresh "E" in destruct x eqn:E
          end
      end ]).

Section Sim.
  Context {V : Type}.
  Variable lt : V -> V -> res bool.
  Notation SL := (core V V).

  Lemma sim_expand pos (c : SL) : SimAt c (sl_expand pos) (skl_expand pos).
  Proof.
    unfold SimAt, sl_expand, skl_expand, modifyR, embed. destruct c as [ls ms ix off n ld].
    ev. destruct (getn ls pos) as [l|e]; [|reflexivity]. ev.
    destruct (ld * 2 <? length l).
    - destruct (setn ls pos (firstn ld l)) as [ls'|e]; [|reflexivity]. ev.
      destruct (getlast (firstn ld l)); [|reflexivity]. ev.
      destruct (setn ms pos a); [|reflexivity]. ev.
      destruct (getlast (skipn ld l)); reflexivity.
    - unfold index_inc. ev. destruct (is_nil ix); [reflexivity|].
      destruct (index_walk _ _ _); reflexivity.
  Qed.

  Lemma updn_insort ls pos v :
    updn ls pos (fun l => insort lt l v) =
    let! l := getn ls pos in
    let! idx := bisect_right lt l v in
    updn ls pos (fun l => Ok (insn l idx v)).
  Proof.
    revert pos. induction ls as [|l ls IH]; intros [|pos]; try reflexivity.
    - cbn [updn getn nth_error rbind]. unfold insort, getn. cbn [nth_error rbind].
      destruct (bisect_right lt l v); reflexivity.
    - cbn [updn]. rewrite IH. unfold getn. cbn [nth_error].
      destruct (nth_error ls pos); cbn [rbind]; [|reflexivity].
      destruct (bisect_right lt l0 v); reflexivity.
  Qed.

  Lemma updn_Ok_any {A} (f : A -> A) ls pos : (exists ls', updn ls pos (fun l => Ok (f l)) = Ok ls') \/
    updn ls pos (fun l => Ok (f l)) = Err IndexError.
  Proof.
    revert pos. induction ls as [|l ls IH]; intros [|pos]; cbn; eauto.
    destruct (IH pos) as [[ls' ->]| ->]; cbn; eauto.
  Qed.

  Lemma sim_add v (c : SL) : SimAt c (sl_add lt v) (skl_add lt ident v).
  Proof.
    unfold SimAt, sl_add, skl_add. unfold bind, liftr, get, ident. cbv beta iota.
    destruct c as [ls ms ix off n ld]. unfold embed. ev.
    destruct (is_nil ms); [reflexivity|].
    destruct (bisect_right lt ms v) as [pos|e]; [|reflexivity].
    destruct (pos =? length ms).
    - unfold modifyR, modify. ev.
      destruct (updn ls (pos - 1) _) as [ls'|e] eqn:Eu; [|reflexivity]. ev. rewrite Eu. ev.
      destruct (setn ms (pos - 1) v) as [ms'|e]; [|reflexivity]. ev.
      pose proof (sim_expand (pos - 1) (mkcore ls' ms' ix off n ld)) as H. unfold SimAt, embed in H. cbn [lists] in H.
      rewrite H. destruct (sl_expand (pos - 1) _) as [[u|e] c']; reflexivity.
    - unfold modifyR, modify. ev. rewrite updn_insort.
      destruct (getn ls pos) as [l|e]; [|reflexivity]. ev.
      destruct (bisect_right lt l v) as [idx|e]; [|reflexivity]. ev.
      destruct (updn ls pos _) as [ls'|e] eqn:Eu; [|reflexivity]. ev. rewrite Eu. ev.
      pose proof (sim_expand pos (mkcore ls' ms ix off n ld)) as H. unfold SimAt, embed in H. cbn [lists] in H.
      rewrite H. destruct (sl_expand pos _) as [[u|e] c']; reflexivity.
  Qed.

  Lemma sim_adds vs : forall (c : SL), SimAt c (forM (sl_add lt) vs) (forM (skl_add lt ident) vs).
  Proof.
    induction vs as [|v vs IH]; intros c; [reflexivity|].
    unfold SimAt. cbn [forM]. unfold bind. rewrite (sim_add v c).
    destruct (sl_add lt v c) as [[u|e] c']; [apply IH|reflexivity].
  Qed.

  Lemma sim_delete pos idx (c : SL) : SimAt c (sl_delete pos idx) (skl_delete pos idx).
  Proof.
    unfold SimAt, sl_delete, skl_delete. destruct c as [ls ms ix off n ld]. unfold embed.
    unfold bind, modifyR, modify, liftr, get. cbv zeta. ev.
    destruct (updn ls pos _) as [ls'|e] eqn:Eu; [|reflexivity]. ev. rewrite Eu. ev.
    destruct (subc n 1) as [n'|e]; [|reflexivity]. ev.
    destruct (getn ls' pos) as [l|e]; [|reflexivity].
    destruct (ld / 2 <? length l).
    { ev. destruct (getlast l) as [m|e]; [|reflexivity]. ev.
      destruct (setn ms pos m) as [ms'|e]; [|reflexivity]. ev.
      unfold index_dec. ev. destruct (is_nil ix); [reflexivity|].
      destruct (index_walk _ _ _); reflexivity. }
    destruct (1 <? length ls').
    { set (p := if pos =? 0 then pos + 1 else pos). ev.
      destruct (getn ls' p) as [lp|e] eqn:Eg; [|reflexivity]. ev.
      destruct (updn ls' (p - 1) _) as [ls2|e] eqn:Ev; [|reflexivity]. ev. rewrite Eg. ev. rewrite Ev. ev.
      destruct (getn ls2 (p - 1)) as [l2|e]; [|reflexivity]. ev.
      destruct (getlast l2) as [m|e]; [|reflexivity]. ev.
      destruct (setn ms (p - 1) m) as [ms'|e]; [|reflexivity]. ev.
      destruct (deln ls2 p) as [ls3|e] eqn:Ed; [|reflexivity]. ev. rewrite Ed. ev.
      destruct (deln ms' p) as [ms3|e]; [|reflexivity]. ev.
      apply (sim_expand (p - 1) (mkcore ls3 ms3 [] off n' ld)). }
    destruct (0 <? length l).
    all: ev.
    { ev. destruct (getlast l) as [m|e]; [|reflexivity]. ev.
      destruct (setn ms pos m) as [ms'|e]; reflexivity. }
    destruct (deln ls' pos) as [ls3|e] eqn:Ed; [|reflexivity]. ev. rewrite Ed. ev.
    destruct (deln ms pos) as [ms3|e]; reflexivity.
  Qed.

  Lemma mapR_ident (l : list V) : mapR ident l = Ok l.
  Proof. induction l as [|x l IH]; cbn; [reflexivity|]. rewrite IH. reflexivity. Qed.
  Lemma mapR_mapR_ident (ls : list (list V)) : mapR (mapR ident) ls = Ok ls.
  Proof. induction ls as [|x l IH]; cbn; [reflexivity|]. rewrite mapR_ident. cbn. rewrite IH. reflexivity. Qed.

  Lemma sim_fill values (c : SL) : lists c = [] -> SimAt c (sl_fill values) (skl_fill ident values).
  Proof.
    intros H. unfold SimAt, sl_fill, skl_fill, modifyR, embed. destruct c as [ls ms ix off n ld].
    cbn [lists] in H. subst ls. ev. destruct (chunks ld values) as [cs|e]; [|reflexivity]. ev.
    cbn [app]. rewrite mapR_mapR_ident. ev. destruct (mapR getlast cs) as [ms'|e]; reflexivity.
  Qed.

  Lemma embed_kc (c : SL) : kc (embed c) = c.
  Proof. reflexivity. Qed.
End Sim.

(** ** The invariant of SortedList *)
Definition LShape {V} (c : core V V) : Prop := Shape ident (embed c).

Section ListShape.
  Context {V : Type}.
  Variable lt : V -> V -> res bool.
  Notation SL := (core V V).

  Lemma lshape_core (c : SL) : LShape c -> CoreOK c.
  Proof. intros H. apply (shape_core ident _ H). Qed.
  Lemma lshape_touch (c c' : SL) : LShape c -> touch c c' -> LShape c'.
  Proof.
    intros H T. assert (E : embed c' = set_kc c' (embed c)).
    { unfold embed, set_kc. cbn [keys]. rewrite (touch_lists _ _ T). reflexivity. }
    unfold LShape. rewrite E. apply shape_touch; assumption.
  Qed.
  Lemma lshape_empty off ld : 1 <= ld -> LShape (mkcore [] [] [] off 0 ld : SL).
  Proof. intros H. apply shape_empty. exact H. Qed.

  Lemma sl_vt_ok : VtOK (sl_vt lt) LShape.
  Proof.
    constructor; unfold vcont, sl_vt; cbn [vt_get vt_put vt_clear vt_delete].
    - apply lshape_core.
    - reflexivity.
    - reflexivity.
    - intros c s. apply lshape_touch.
    - intros s (rows & H & Hl). eexists. split; [reflexivity|].
      split; [apply lshape_empty, (sh_load _ _ _ H)|]. split; reflexivity.
    - intros ld s H E Hld.
      pose proof (vo_load _ _ (skl_vt_ok lt ident) ld (embed s) H E Hld) as G. exact G.
    - intros s a x b p i H E HL.
      destruct (vo_delete _ _ (skl_vt_ok lt ident) (embed s) a x b p i H E HL) as (s' & H1 & H2 & H3 & H4).
      pose proof (sim_delete p i s) as S. unfold SimAt in S. cbn [skl_vt vt_delete] in H1. rewrite H1 in S.
      injection S as S1 S2. exists (snd (sl_delete p i s)).
      rewrite (surjective_pairing (sl_delete p i s)) at 1. rewrite <- S1.
      rewrite S2 in H2, H3, H4. auto.
  Qed.

  Lemma sl_add_gen v (c : SL) : LShape c ->
    (exists e, sl_add lt v c = (Err e, c) /\ exists y, lt v y = Err e) \/
    (exists c' l1 l2, sl_add lt v c = (Ok tt, c') /\ LShape c' /\ load c' = load c /\
       contents c = l1 ++ l2 /\ contents c' = l1 ++ v :: l2 /\ Split (lt v) l1 l2).
  Proof.
    intros H. pose proof (sim_add lt v c) as S. unfold SimAt in S.
    destruct (skl_add_gen ident lt v (embed c) H) as
      [(e & H1 & H2)|(s' & k & l1 & l2 & k1 & k2 & H1 & H2 & H3 & H4 & H5 & H6 & H7 & H8 & H9)].
    - left. exists e. rewrite H1 in S. injection S as S1 S2.
      rewrite (surjective_pairing (sl_add lt v c)), <- S1.
      split; [f_equal; unfold embed in S2; congruence|].
      destruct H2 as [H2|(k & y & Hk & H2)]; [discriminate|]. injection Hk as <-. eauto.
    - right. rewrite H1 in S. injection S as S1 S2. exists (snd (sl_add lt v c)), l1, l2.
      rewrite (surjective_pairing (sl_add lt v c)) at 1. rewrite <- S1. rewrite S2 in *.
      injection H4 as <-. rewrite mapR_ident in H7, H8. injection H7 as <-. injection H8 as <-.
      auto 10.
  Qed.

  Lemma sl_adds_gen values (c : SL) : LShape c ->
    exists r c' vs, forM (sl_add lt) values c = (r, c') /\ LShape c' /\ load c' = load c /\
      Permutation (contents c') (contents c ++ vs) /\
      (exists ws, values = vs ++ ws /\ (r = Ok tt -> ws = [])).
  Proof.
    intros H. pose proof (sim_adds lt values c) as S. unfold SimAt in S.
    destruct (skl_adds_gen lt ident values (embed c) H) as (r & s' & vs & H1 & H2 & H3 & H4 & H5).
    rewrite H1 in S. injection S as S1 S2. exists r, (snd (forM (sl_add lt) values c)), vs.
    rewrite (surjective_pairing (forM (sl_add lt) values c)) at 1. rewrite <- S1. rewrite S2 in *. auto.
  Qed.

  Lemma sl_fill_ok values ix off ld n : 1 <= ld ->
    exists c', sl_fill values (mkcore [] [] ix off n ld : SL) = (Ok tt, c') /\ LShape c' /\
      contents c' = values /\ load c' = ld.
  Proof.
    intros Hld. set (c := mkcore [] [] ix off n ld : SL).
    pose proof (sim_fill values c eq_refl) as S. unfold SimAt in S.
    destruct (skl_fill_ok ident values values ix off ld n (mapR_ident _) Hld) as (s' & H1 & H2 & H3 & H4).
    change (mkskl (mkcore [] [] ix off n ld) []) with (embed c) in H1. rewrite H1 in S. injection S as S1 S2.
    exists (snd (sl_fill values c)). rewrite (surjective_pairing (sl_fill values c)) at 1.
    rewrite <- S1. rewrite S2 in *. auto.
  Qed.

  Lemma lshape_nil_state (c : SL) : LShape c -> is_nil (maxes c) = true ->
    exists ix off, c = mkcore [] [] ix off 0 (load c).
  Proof.
    intros H E. pose proof H as (rows & H0 & _).
    assert (rows = []) by (eapply shape_nil; eauto). subst rows.
    destruct (shape_nil_state ident (embed c) H) as (ix & off & Es & _).
    { unfold contents, embed. cbn [kc]. rewrite (sh_lists _ _ _ H0 : lists c = _). reflexivity. }
    exists ix, off. apply (f_equal (@kc V V)) in Es. exact Es.
  Qed.
  Lemma lshape_load (c : SL) : LShape c -> 1 <= load c.
  Proof. intros (rows & H0 & _). apply (sh_load _ _ _ H0). Qed.
End ListShape.
