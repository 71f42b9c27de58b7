(** * What the internal lists of a SortedList hold after an operation, those it no longer uses among them *)
From Verif Require Import PyBase Model Spec History ModelHeap HeapSpec HeapFacts HeapSim HeapSim2.
Local Unset Implicit Arguments.

Section Kept.
  Context {V : Type}.
  Variables lt eq : V -> V -> res bool.
  Notation ST := (heap V * hsl V)%type.

  (** Every list that was used before holds only values that the SortedList had before or has now. *)
  Definition kept (s s' : ST) : Prop :=
    forall r v, In r (rows (snd s)) -> In v (cell (fst s') r) -> In v (contents (view s)) \/ In v (contents (view s')).
  Lemma in_contents (s : ST) r v : In r (rows (snd s)) -> In v (cell (fst s) r) -> In v (contents (view s)).
  Proof. destruct s as [h o]. intros Hr Hv. unfold contents. cbn in *. apply in_concat. exists (cell h r). split; [apply in_map, Hr|exact Hv]. Qed.
  Lemma contents_in (s : ST) v : In v (contents (view s)) -> exists r, In r (rows (snd s)) /\ In v (cell (fst s) r).
  Proof.
    destruct s as [h o]. unfold contents. cbn. intros H. apply in_concat in H as (l & Hl & Hv). apply in_map_iff in Hl as (r & <- & Hr). eauto.
  Qed.
  Lemma kept_soft s s' : (forall r, In r (rows (snd s)) -> In r (rows (snd s')) \/ cell (fst s') r = cell (fst s) r) -> kept s s'.
  Proof.
    intros H r v Hr Hv. destruct (H r Hr) as [H1|H1].
    - right. eapply in_contents; eassumption.
    - left. rewrite H1 in Hv. eapply in_contents; eassumption.
  Qed.

  (** ** Methods that only add lists *)
  Definition grows {A} (hm : M ST A) : Prop := forall s, incl (rows (snd s)) (rows (snd (snd (hm s)))).
  Lemma grows_bind {A B} (m : M ST A) (k : A -> M ST B) : grows m -> (forall a, grows (k a)) -> grows (bind m k).
  Proof.
    intros Hm Hk s. unfold bind. specialize (Hm s). destruct (m s) as [[a|e] s']; cbn in *; [|exact Hm].
    eapply incl_tran; [exact Hm|apply Hk].
  Qed.
  Lemma grows_same {A} (hm : M ST A) : (forall s, rows (snd (snd (hm s))) = rows (snd s)) -> grows hm.
  Proof. intros H s. rewrite H. apply incl_refl. Qed.
  Lemma grows_reading {A} (m : M (core V V) A) : grows (reading m).
  Proof. apply grows_same. intros [h o]. unfold reading, zoom. destruct (m _). reflexivity. Qed.
  Lemma grows_liftr {A} (a : res A) : grows (liftr a). Proof. apply grows_same. reflexivity. Qed.
  Lemma grows_modifyR (f : ST -> res ST) : (forall s s', f s = Ok s' -> incl (rows (snd s)) (rows (snd s'))) -> grows (modifyR f).
  Proof. intros H s. unfold modifyR. destruct (f s) as [s'|e] eqn:E; cbn; [eapply H, E|apply incl_refl]. Qed.
  Lemma grows_expand pos : grows (h_expand pos).
  Proof.
    apply grows_modifyR. intros [h o] s' H. destruct (getn (rows o) pos) as [p|]; [|discriminate]. cbn [rbind] in H.
    destruct (hload o * 2 <? length (cell h p)).
    - cbn [alloc] in H. destruct (getlast _); [|discriminate]. cbn [rbind] in H. destruct (setn _ _ _); [|discriminate]. cbn [rbind] in H.
      destruct (getlast _); [|discriminate]. apply ok_inj in H as <-. cbn. intros r Hr. apply In_insn. right. exact Hr.
    - destruct (index_inc _ _); [|discriminate]. apply ok_inj in H as <-. apply incl_refl.
  Qed.
  Lemma grows_change pos f : grows (h_change pos f).
  Proof.
    apply grows_modifyR. intros [h o] s' H. destruct (getn (rows o) pos); [|discriminate]. cbn [rbind] in H. destruct (f _); [|discriminate].
    apply ok_inj in H as <-. apply incl_refl.
  Qed.
  Lemma grows_add v : grows (h_add lt v).
  Proof.
    unfold h_add. apply grows_bind; [apply grows_reading|]. intros c. apply grows_bind; [|intros; apply grows_reading].
    destruct (is_nil (maxes c)).
    - apply grows_bind; [apply grows_same; reflexivity|]. intros r. apply grows_bind; [|intros; apply grows_reading].
      intros s. cbn. apply incl_appl, incl_refl.
    - apply grows_bind; [apply grows_liftr|]. intros pos. destruct (pos =? length (maxes c)).
      + apply grows_bind; [apply grows_change|]. intros _. apply grows_bind; [apply grows_reading|]. intros _. apply grows_expand.
      + apply grows_bind; [apply grows_change|]. intros _. apply grows_expand.
  Qed.
  Lemma grows_add_each f : forall b i, grows (h_add_each lt f b i).
  Proof.
    induction f as [|f IH]; intros b i; cbn [h_add_each]; [apply grows_same; reflexivity|].
    apply grows_bind; [apply grows_same; reflexivity|]. intros l. destruct (i <? length l); [|apply grows_same; reflexivity].
    apply grows_bind; [apply grows_liftr|]. intros v. apply grows_bind; [apply grows_add|]. intros _. apply IH.
  Qed.
  Lemma grows_fill b : grows (h_fill b).
  Proof.
    apply grows_modifyR. intros [h o] s' H. destruct (chunks _ _) as [cs|]; [|discriminate]. cbn [rbind] in H. rewrite alloc_all_eq in H.
    destruct (mapR _ _); [|discriminate]. apply ok_inj in H as <-. cbn. apply incl_appl, incl_refl.
  Qed.

  (** ** Methods that leave the first [n] lists alone *)
  Definition frz {B} (n : nat) (hm : M ST B) (Q : B -> Prop) : Prop :=
    forall s, n <= length (fst s) ->
      n <= length (fst (snd (hm s))) /\ (forall r, r < n -> cell (fst (snd (hm s))) r = cell (fst s) r) /\
      match fst (hm s) with Ok b => Q b | Err _ => True end.
  Lemma frz_bind {A B} n (m : M ST A) (k : A -> M ST B) Q R : frz n m Q -> (forall a, Q a -> frz n (k a) R) -> frz n (bind m k) R.
  Proof.
    intros Hm Hk s Hn. destruct (Hm s Hn) as (L & C & X). unfold bind. destruct (m s) as [[a|e] s']; cbn [fst snd] in *; [|auto].
    destruct (Hk a X s' L) as (L' & C' & X'). split; [exact L'|]. split; [|exact X']. intros r Hr. rewrite C', C by exact Hr. reflexivity.
  Qed.
  Lemma frz_heap {B} n (hm : M ST B) (Q : B -> Prop) : (forall s, fst (snd (hm s)) = fst s) -> (forall s b, fst (hm s) = Ok b -> Q b) -> frz n hm Q.
  Proof. intros H HQ s Hn. rewrite H. split; [exact Hn|]. split; [reflexivity|]. specialize (HQ s). destruct (fst (hm s)); auto. Qed.
  Definition whatever {B} : B -> Prop := fun _ => True.
  Lemma frz_same {B} n (hm : M ST B) : (forall s, fst (snd (hm s)) = fst s) -> frz n hm whatever.
  Proof. intros H. apply frz_heap; [exact H|]. intros; exact I. Qed.
  Lemma frz_reading {A} n (m : M (core V V) A) : frz n (reading m) whatever.
  Proof. apply frz_same. intros [h o]. unfold reading, zoom. destruct (m _). reflexivity. Qed.
  Lemma frz_ret {A} n (a : A) (Q : A -> Prop) : Q a -> frz n (ret a) Q.
  Proof. intros H. apply frz_heap; [reflexivity|]. intros s b E. cbn in E. apply ok_inj in E as <-. exact H. Qed.
  Lemma frz_alloc n x : frz n (h_alloc x) (fun b => n <= b).
  Proof.
    intros [h o] Hn. cbn [fst snd] in Hn. cbn. rewrite app_length. split; [lia|]. split; [|exact Hn]. intros r Hr. apply cell_app_old. lia.
  Qed.
  Lemma frz_write n b x : n <= b -> frz n (h_write b x) whatever.
  Proof.
    intros Hb s Hn. cbn. rewrite length_write. split; [exact Hn|]. split; [|exact I]. intros r Hr. apply cell_write_other. lia.
  Qed.
  Lemma frz_iadd n b (f : ST -> list ref) : n <= b -> frz n (modify (fun s : ST => (reduce_iadd (f s) b (fst s), snd s))) whatever.
  Proof.
    intros Hb s Hn. cbn. rewrite length_reduce. split; [exact Hn|]. split; [|exact I]. intros r Hr. apply reduce_other. lia.
  Qed.
  Lemma frz_flat n : frz n h_flat (fun b => n <= b).
  Proof.
    unfold h_flat. eapply frz_bind; [apply frz_alloc|]. intros b Hb. eapply frz_bind; [apply frz_iadd, Hb|]. intros _ _. apply frz_ret, Hb.
  Qed.
  Lemma frz_fill n b : frz n (h_fill b) whatever.
  Proof.
    intros [h o] Hn. unfold h_fill, modifyR. destruct (chunks _ _) as [cs|]; cbn [rbind fst snd] in *; [|auto]. rewrite alloc_all_eq.
    destruct (mapR _ _); cbn [rbind fst snd]; [|auto]. rewrite app_length. split; [lia|]. split; [|exact I]. intros r Hr. apply cell_app_old. lia.
  Qed.
  Lemma frz_sort n b : n <= b -> frz n (h_sort lt b) whatever.
  Proof.
    intros Hb. unfold h_sort. eapply frz_bind; [apply frz_same; reflexivity|]. intros l _. eapply frz_bind; [apply frz_same; reflexivity|].
    intros l' _. apply frz_write, Hb.
  Qed.
  Lemma frz_clear n : frz n h_clear whatever. Proof. apply frz_same. reflexivity. Qed.
  Lemma frz_sorted n a : frz n (h_sorted lt a) (fun b => n <= b).
  Proof.
    intros s Hn. unfold h_sorted. destruct (py_sorted lt _) as [l|e]; [apply frz_alloc, Hn|]. cbn. auto.
  Qed.
  Lemma frz_slice n f : forall sl, frz n (h_getitem_slice_rec f sl) (fun b => n <= b).
  Proof.
    assert (HR : forall i, frz n (h_row i) whatever) by (intros i; apply frz_same; reflexivity).
    assert (HC : forall r, frz n (h_cell r) whatever) by (intros r; apply frz_same; reflexivity).
    induction f as [|f IH]; intros sl; cbn [h_getitem_slice_rec]; [apply frz_heap; [reflexivity|discriminate]|].
    eapply frz_bind; [apply frz_reading|]. intros c _. eapply frz_bind; [apply frz_same; reflexivity|]. intros [[start stop] step] _.
    destruct ((step =? 1) && (start <? stop))%Z.
    - unfold h_getitem_fwd. eapply frz_bind; [apply frz_reading|]. intros c' _. destruct ((start =? 0) && (stop =? Z.of_nat (len c')))%Z; [apply frz_flat|].
      eapply frz_bind; [apply frz_reading|]. intros p _. eapply frz_bind; [apply HR|]. intros sl1 _. eapply frz_bind; [apply HC|]. intros l _. cbv zeta.
      destruct (_ <=? length l); [apply frz_alloc|]. eapply frz_bind; [apply frz_reading|]. intros q _.
      eapply frz_bind; [apply HR|]. intros r1 _. eapply frz_bind; [apply HC|]. intros l1 _. eapply frz_bind; [apply frz_alloc|]. intros b Hb.
      eapply frz_bind; [exact (frz_iadd n b (fun s => slicen (rows (snd s)) (fst p + 1) (fst q)) Hb)|]. intros _ _.
      eapply frz_bind; [apply HR|]. intros r2 _. eapply frz_bind; [apply HC|]. intros l2 _. eapply frz_bind; [apply frz_alloc|]. intros b2 _.
      eapply frz_bind; [exact (frz_iadd n b (fun s => [b2]) Hb)|]. intros _ _. apply frz_ret, Hb.
    - destruct ((step =? -1) && (stop <? start))%Z.
      + eapply frz_bind; [apply IH|]. intros b Hb. eapply frz_bind; [apply HC|]. intros l _. eapply frz_bind; [apply frz_write, Hb|].
        intros _ _. apply frz_ret, Hb.
      + eapply frz_bind; [apply frz_reading|]. intros l _. apply frz_alloc.
  Qed.
  (** [update] of an empty SortedList. *)
  Lemma update_eq a (s : ST) : h_update lt a s =
    match h_sorted lt a s with
    | (Ok b, s1) =>
        (if is_nil (maxes (view s1)) then h_fill b
         else if len (view s1) <=? length (cell (fst s1) b) * 4 then
           modify (fun s : ST => (fst s, set_rows (rows (snd s) ++ [b]) (snd s))) ;;;
           values <- h_flat ;; h_sort lt values ;;; h_clear ;;; h_fill values
         else h_add_each lt (length (cell (fst s1) b)) b 0) s1
    | (Err e, s1) => (Err e, s1)
    end.
  Proof.
    unfold h_update, bind at 1. destruct (h_sorted lt a s) as [[b|e] s1]; [|reflexivity].
    unfold bind at 1, h_cell. unfold bind at 1, reading at 1, zoom, get. destruct s1 as [h1 []]. reflexivity.
  Qed.
  Lemma sorted_obj a (s : ST) : snd (snd (h_sorted lt a s)) = snd s.
  Proof. unfold h_sorted. destruct (py_sorted lt _); reflexivity. Qed.
  Lemma frz_update_nil n a (s : ST) : hmaxes (snd s) = [] -> n <= length (fst s) ->
    n <= length (fst (snd (h_update lt a s))) /\ (forall r, r < n -> cell (fst (snd (h_update lt a s))) r = cell (fst s) r) /\
    match fst (h_update lt a s) with Ok b => whatever b | Err _ => True end.
  Proof.
    intros E Hn. rewrite update_eq. destruct (frz_sorted n a s Hn) as (L & C & X). pose proof (sorted_obj a s) as ES.
    destruct (h_sorted lt a s) as [[b|e] s1]; cbn [fst snd] in *; [|auto].
    replace (maxes (view s1)) with (@nil V) by (destruct s1 as [h1 o2]; cbn in *; congruence). cbn [is_nil].
    destruct (frz_fill n b s1 L) as (L' & C' & X'). split; [exact L'|]. split; [|exact X']. intros r Hr. rewrite C', C by exact Hr. reflexivity.
  Qed.
  Lemma frz_clear_update n a (f : core V V -> core V V) : (forall c, maxes (f c) = maxes c) ->
    frz n (h_clear ;;; reading (modify f) ;;; h_update lt a) whatever.
  Proof.
    intros Hf [h o] Hn. apply (frz_update_nil n a (put (f (view (h, mkhsl [] [] [] 0 0 (hload o)))) (h, mkhsl [] [] [] 0 0 (hload o)))); [|exact Hn].
    cbn. apply Hf.
  Qed.
  Lemma frz_clear_update0 n a : frz n (h_clear ;;; h_update lt a) whatever.
  Proof. intros [h o] Hn. apply (frz_update_nil n a (h, mkhsl [] [] [] 0 0 (hload o))); [reflexivity|exact Hn]. Qed.
  Lemma kept_frz {B} (hm : M ST B) Q s : good s -> frz (length (fst s)) hm Q -> kept s (snd (hm s)).
  Proof.
    intros [_ HF] H. destruct (H s (le_n _)) as (_ & C & _). apply kept_soft. intros r Hr. right. apply C.
    rewrite Forall_forall in HF. apply HF, Hr.
  Qed.
  Lemma kept_grows {B} (hm : M ST B) s : grows hm -> kept s (snd (hm s)).
  Proof. intros H. apply kept_soft. intros r Hr. left. apply H, Hr. Qed.

  Lemma kept_update a s : good s -> kept s (snd (h_update lt a s)).
  Proof.
    intros HG. apply kept_soft. intros r Hr. assert (Hlt : r < length (fst s)) by (destruct HG as [_ HF]; rewrite Forall_forall in HF; apply HF, Hr).
    rewrite update_eq. destruct (frz_sorted (length (fst s)) a s (le_n _)) as (L & C & X). pose proof (sorted_obj a s) as ES.
    destruct (h_sorted lt a s) as [[b|e] s1]; cbn [fst snd] in *; [|left; rewrite ES; exact Hr]. rewrite <- ES in Hr.
    destruct (is_nil (maxes (view s1))); [left; apply (grows_fill b s1), Hr|]. destruct (len (view s1) <=? _).
    - right. etransitivity; [|exact (C r Hlt)]. clear Hr C ES.
      assert (F : frz (length (fst s)) (modify (fun s : ST => (fst s, set_rows (rows (snd s) ++ [b]) (snd s))) ;;;
        values <- h_flat ;; h_sort lt values ;;; h_clear ;;; h_fill values) whatever).
      { eapply frz_bind; [apply frz_same; reflexivity|]. intros _ _. eapply frz_bind; [apply frz_flat|]. intros v Hv.
        eapply frz_bind; [apply frz_sort, Hv|]. intros _ _. eapply frz_bind; [apply frz_clear|]. intros _ _. apply frz_fill. }
      apply (F s1 L), Hlt.
    - left. apply (grows_add_each _ b 0 s1), Hr.
  Qed.

  (** ** Methods that only remove values *)
  Section Pres.
    Variable X : V -> Prop.
    Variable E : ref -> Prop.
    (** All lists in use, and those of [E], hold values of [X]. *)
    Definition within (s : ST) : Prop := forall r v, In r (rows (snd s)) \/ E r -> In v (cell (fst s) r) -> X v.
    Definition pres {B} (hm : M ST B) : Prop := forall s, within s -> within (snd (hm s)).
    Lemma pres_bind {A B} (m : M ST A) (k : A -> M ST B) : pres m -> (forall a, pres (k a)) -> pres (bind m k).
    Proof. intros Hm Hk s Hs. unfold bind. specialize (Hm s Hs). destruct (m s) as [[a|e] s']; cbn in *; [apply Hk|]; exact Hm. Qed.
    Lemma pres_liftr {A} (a : res A) : pres (liftr a). Proof. intros s Hs. exact Hs. Qed.
    Lemma pres_ret {A} (a : A) : pres (ret a). Proof. intros s Hs. exact Hs. Qed.
    Lemma pres_raise {A} e : pres (raise (A:=A) e). Proof. intros s Hs. exact Hs. Qed.
    Lemma pres_reading {A} (m : M (core V V) A) : pres (reading m).
    Proof. intros [h o] Hs. unfold reading, zoom. destruct (m _) as [r c]. exact Hs. Qed.
    Lemma pres_modifyR f : (forall s s', within s -> f s = Ok s' -> within s') -> pres (modifyR f).
    Proof. intros H s Hs. unfold modifyR. destruct (f s) as [s'|e] eqn:Ef; cbn; [eapply H; eassumption|exact Hs]. Qed.
    Lemma cell_write_cases (h : heap V) p x r v : In v (cell (write h p x) r) -> In v (cell h r) \/ r = p /\ In v x.
    Proof.
      intros H. destruct (Nat.eq_dec r p) as [->|Hn]; [|rewrite cell_write_other in H by exact Hn; left; exact H].
      destruct (Nat.lt_ge_cases p (length h)) as [Hl|Hl].
      - rewrite cell_write_same in H by exact Hl. right. auto.
      - unfold cell in H. rewrite nth_overflow in H by (rewrite length_write; exact Hl). destruct H.
    Qed.
    Lemma within_write h o p x : within (h, o) -> (forall v, In v x -> X v) -> within (write h p x, o).
    Proof.
      intros Hs Hx r v Hr Hv. cbn [fst snd] in *. apply cell_write_cases in Hv as [Hv|[_ Hv]]; [exact (Hs r v Hr Hv)|exact (Hx v Hv)].
    Qed.
    Lemma pres_change pos f : (forall l l' v, f l = Ok l' -> In v l' -> In v l) -> pres (h_change pos f).
    Proof.
      intros Hf. apply pres_modifyR. intros [h o] s' Hs H. destruct (getn (rows o) pos) as [p|] eqn:Ep; [|discriminate]. cbn [rbind] in H.
      destruct (f (cell h p)) as [l|] eqn:Ef; [|discriminate]. apply ok_inj in H as <-. apply within_write; [exact Hs|].
      intros v Hv. apply (Hs p v); [left; eapply getn_In, Ep|]. eapply Hf; eassumption.
    Qed.
    Lemma pres_delrow pos : pres (modifyR (fun s : ST => let! ls := deln (rows (snd s)) pos in Ok (fst s, set_rows ls (snd s)))).
    Proof.
      apply pres_modifyR. intros [h o] s' Hs H. cbn [fst snd] in H. destruct (deln (rows o) pos) as [ls|] eqn:Ed; [|discriminate]. apply ok_inj in H as <-.
      intros r v [Hr|Hr] Hv; cbn in Hr, Hv; [|exact (Hs r v (or_intror Hr) Hv)]. apply (Hs r v); [left; eapply In_deln; eassumption|exact Hv].
    Qed.
    Lemma pres_expand pos : pres (h_expand pos).
    Proof.
      apply pres_modifyR. intros [h o] s' Hs H. destruct (getn (rows o) pos) as [p|] eqn:Ep; [|discriminate]. cbn [rbind] in H.
      assert (Hp : forall v, In v (cell h p) -> X v) by (intros v; apply (Hs p v); left; eapply getn_In, Ep).
      destruct (hload o * 2 <? length (cell h p)).
      - cbn [alloc] in H. destruct (getlast _); [|discriminate]. cbn [rbind] in H. destruct (setn _ _ _); [|discriminate]. cbn [rbind] in H.
        destruct (getlast _); [|discriminate]. apply ok_inj in H as <-.
        assert (HA : forall r v, In r (rows o) \/ E r \/ r = length h -> In v (cell (h ++ [skipn (hload o) (cell h p)]) r) -> X v).
        { intros r v Hr Hv. destruct (Nat.lt_total r (length h)) as [Hl|[->|Hl]].
          - rewrite cell_app_old in Hv by exact Hl. destruct Hr as [Hr|[Hr|Hr]]; [apply (Hs r v); auto|apply (Hs r v); auto|lia].
          - rewrite cell_app_new in Hv. apply Hp. rewrite <- (firstn_skipn (hload o) (cell h p)). apply in_app_iff. right. exact Hv.
          - unfold cell in Hv. rewrite nth_overflow in Hv by (rewrite app_length; cbn; lia). destruct Hv. }
        intros r v Hr Hv. cbn [fst snd rows] in *. apply cell_write_cases in Hv as [Hv|[_ Hv]].
        + apply (HA r v); [|exact Hv]. destruct Hr as [Hr|Hr]; [|auto]. apply In_insn in Hr as [->|Hr]; auto.
        + apply (HA p v); [left; eapply getn_In, Ep|]. rewrite <- (firstn_skipn (hload o) (cell _ p)). apply in_app_iff. left. exact Hv.
      - destruct (index_inc _ _); [|discriminate]. apply ok_inj in H as <-. exact Hs.
    Qed.
    Lemma pres_delete pos idx : pres (h_delete pos idx).
    Proof.
      unfold h_delete. apply pres_bind; [apply pres_change; intros l l' v; apply In_deln|]. intros _.
      apply pres_bind; [apply pres_reading|]. intros _. apply pres_bind; [apply pres_reading|]. intros c. apply pres_bind; [apply pres_liftr|]. intros l. cbv zeta.
      destruct (load c / 2 <? length l).
      { apply pres_bind; [apply pres_reading|]. intros _. apply pres_reading. }
      destruct (1 <? length (lists c)).
      - apply pres_bind; [|intros _; apply pres_bind; [apply pres_reading|intros _; apply pres_bind; [apply pres_delrow|intros _;
          apply pres_bind; [apply pres_reading|intros _; apply pres_bind; [apply pres_reading|intros _; apply pres_expand]]]]].
        apply pres_modifyR. intros [h o] s' Hs H. destruct (getn (rows o) _) as [p|] eqn:Ep; [|discriminate]. cbn [rbind] in H.
        destruct (getn (rows o) (_ - 1)) as [q|] eqn:Eq; [|discriminate]. apply ok_inj in H as <-. apply within_write; [exact Hs|].
        intros v Hv. apply in_app_iff in Hv as [Hv|Hv]; [apply (Hs q v)|apply (Hs p v)]; auto; left; eapply getn_In; eassumption.
      - destruct (0 <? length l); [apply pres_reading|]. apply pres_bind; [apply pres_delrow|]. intros _. apply pres_bind; [apply pres_reading|].
        intros _. apply pres_reading.
    Qed.
    Lemma pres_discard v : pres (h_discard lt eq v).
    Proof.
      unfold h_discard. apply pres_bind; [apply pres_reading|]. intros c. destruct (is_nil _); [apply pres_ret|]. apply pres_bind; [apply pres_liftr|].
      intros pos. destruct (_ =? _); [apply pres_ret|]. do 4 (apply pres_bind; [apply pres_liftr|intros ?]). destruct a2; [apply pres_delete|apply pres_ret].
    Qed.
    Lemma pres_remove v : pres (h_remove lt eq v).
    Proof.
      unfold h_remove. apply pres_bind; [apply pres_reading|]. intros c. destruct (is_nil _); [apply pres_raise|]. apply pres_bind; [apply pres_liftr|].
      intros pos. destruct (_ =? _); [apply pres_raise|]. do 4 (apply pres_bind; [apply pres_liftr|intros ?]). destruct a2; [apply pres_delete|apply pres_raise].
    Qed.
    Lemma pres_oncore {A} (m : M (core V V) A) : pres (oncore (h_vt lt) m).
    Proof. exact (pres_reading m). Qed.
    Lemma pres_delitem i : pres (delitem_int (h_vt lt) i).
    Proof. unfold delitem_int. apply pres_bind; [apply pres_oncore|]. intros p. apply pres_delete. Qed.
    Lemma pres_forM {A} (f : A -> M ST unit) l : (forall a, pres (f a)) -> pres (forM f l).
    Proof. intros H. induction l as [|a l IH]; cbn [forM]; [apply pres_ret|]. apply pres_bind; [apply H|]. intros _. exact IH. Qed.
  End Pres.
  Lemma kept_pres {B} (hm : M ST B) s : (forall X E, pres X E hm) -> kept s (snd (hm s)).
  Proof.
    intros H r v Hr Hv. left. apply (H (fun v => In v (contents (view s))) (fun r => In r (rows (snd s))) s) with (r := r); [|right; exact Hr|exact Hv].
    intros r' v' [Hr'|Hr'] Hv'; eapply in_contents; eassumption.
  Qed.

  (** ** One operation *)
  Lemma kept_refl s : kept s s. Proof. apply kept_soft. auto. Qed.
  Lemma kept_reading {A} (m : M (core V V) A) s : kept s (snd (reading m s)).
  Proof. apply kept_grows, grows_reading. Qed.
  Lemma kept_observe {A} (inj : A -> out V) (hm : M ST A) s : kept s (snd (hm s)) -> kept s (snd (observe inj hm s)).
  Proof. unfold observe. destruct (hm s) as [[a|e] s']; exact (fun H => H). Qed.
  Lemma pres_pop X E i : pres X E (pop (h_vt lt) i).
  Proof.
    unfold pop. apply pres_bind; [apply pres_oncore|]. intros c. destruct (len c =? 0); [apply pres_raise|].
    assert (HD : forall (p q : nat) (v : V), pres X E (vt_delete (h_vt lt) p q ;;; ret v)).
    { intros p q v. apply pres_bind; [apply pres_delete|]. intros _. apply pres_ret. }
    destruct (i =? 0)%Z; [do 2 (apply pres_bind; [apply pres_liftr|intros ?]); apply HD|].
    destruct (i =? -1)%Z; [do 3 (apply pres_bind; [apply pres_liftr|intros ?]); apply HD|].
    apply pres_bind; [apply pres_liftr|]. intros l0. destruct (_ && _)%bool; [apply pres_bind; [apply pres_liftr|intros ?]; apply HD|].
    apply pres_bind; [apply pres_liftr|]. intros ll. cbv zeta. destruct (_ && _)%bool; [do 2 (apply pres_bind; [apply pres_liftr|intros ?]); apply HD|].
    apply pres_bind; [apply pres_oncore|]. intros [a b]. do 2 (apply pres_bind; [apply pres_liftr|intros ?]); apply HD.
  Qed.
  Lemma kept_delitem_slice sl s : good s -> kept s (snd (h_delitem_slice lt sl s)).
  Proof.
    intros HG. unfold h_delitem_slice. unfold bind at 1, reading at 1, zoom, get. destruct s as [h []]. cbn [put view fst snd]. unfold bind at 1, liftr.
    destruct (slice_indices _ _) as [[[start stop] step]|e]; [|apply kept_refl]. cbv zeta.
    set (c := len _). set (s0 := (h, _) : ST) in *.
    destruct ((step =? 1) && (start <? stop))%Z; [|apply kept_pres; intros X E; apply pres_forM, pres_delitem].
    destruct ((start =? 0) && (stop =? Z.of_nat c))%Z; [eapply kept_frz; [exact HG|apply frz_clear]|].
    destruct (Z.of_nat c <=? 8 * (stop - start))%Z; [|apply kept_pres; intros X E; apply pres_forM, pres_delitem].
    eapply kept_frz; [exact HG|]. eapply frz_bind; [apply frz_slice|]. intros b Hb. eapply (frz_bind _ _ _ whatever); [|intros _ _; apply frz_clear_update0].
    destruct (stop <? Z.of_nat c)%Z; [|apply frz_ret; exact I]. eapply frz_bind; [apply frz_slice|]. intros m _.
    exact (frz_iadd _ b (fun s => [m]) Hb).
  Qed.
  Lemma kept_step o s : good s -> kept s (snd (h_step lt eq o s)).
  Proof.
    intros HG. destruct o; cbn [h_step]; try apply kept_refl; apply kept_observe; try apply kept_reading.
    - apply kept_grows, grows_add.
    - eapply kept_frz; [exact HG|apply frz_clear].
    - apply kept_pres. intros X E. apply pres_discard.
    - apply kept_pres. intros X E. apply pres_remove.
    - apply kept_pres. intros X E. apply pres_delitem.
    - apply kept_delitem_slice, HG.
    - apply kept_pres. intros X E. apply pres_pop.
    - eapply kept_frz; [exact HG|]. unfold h_reset. eapply frz_bind; [apply frz_flat|]. intros b _. apply frz_clear_update. reflexivity.
    - eapply kept_frz; [exact HG|]. unfold h_imul. eapply frz_bind; [apply frz_flat|]. intros b _. eapply frz_bind; [apply frz_same; reflexivity|].
      intros l _. eapply frz_bind; [apply frz_alloc|]. intros b' _. apply frz_clear_update0.
  Qed.
End Kept.
