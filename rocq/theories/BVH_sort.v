(** Codes and sorting of the BVH construction. *)
From Verif Require Import Base Integer Integer_proofs Morton SortSearch_spec SortSearch_proofs Karras Par Reduction Bitonic P_Bitonic Traverse BVH BVH_spec.
From Coq Require Import ZifyBool ZifyNat ZifyN.
Local Open Scope nat_scope.

Lemma par_shift {A} (e : A) n order : Permutation order (seq 0 n) -> forall a (old : list A), length old = a + n ->
  par_for order (fun i out => aset out (a + i) e) old = Ok (firstn a old ++ repeat e n).
Proof.
  intros HP a old HL.
  assert (G : forall order, (forall i, In i order -> i < n) -> forall old : list A, length old = a + n ->
    exists out, par_for order (fun i out => aset out (a + i) e) old = Ok out /\ length out = a + n /\
      forall j, nth_error out j = if existsb (fun i => a + i =? j) order then Some e else nth_error old j).
  { clear. unfold par_for. induction order as [|i order IH]; intros HI old HL; cbn [rfold].
    - exists old. repeat split; auto.
    - rewrite aset_lt by (specialize (HI i (or_introl eq_refl)); lia). cbn [rbind].
      destruct (IH (fun j Hj => HI j (or_intror Hj)) (upd old (a + i) e)) as (out & E & L & N1); [now rewrite length_upd|].
      exists out. split; auto. split; auto. intros j. rewrite N1. cbn [existsb].
      destruct (existsb (fun i0 => a + i0 =? j) order); [now rewrite orb_true_r|]. rewrite orb_false_r.
      destruct (Nat.eqb_spec (a + i) j) as [<-|NE].
      + apply nth_error_upd_eq. specialize (HI i (or_introl eq_refl)). lia.
      + now apply nth_error_upd_neq. }
  destruct (G order) with (old := old) as (out & E & L & N1); auto.
  { intros i Hi. apply (Permutation_in _ HP), in_seq in Hi. lia. }
  rewrite E. f_equal. apply list_eq_nth_error. intros j. rewrite N1.
  destruct (existsb (fun i => a + i =? j) order) eqn:EX.
  - apply existsb_exists in EX. destruct EX as (i & Hi & Ei). apply Nat.eqb_eq in Ei.
    apply (Permutation_in _ HP), in_seq in Hi. rewrite nth_error_app2 by (rewrite firstn_length; lia).
    rewrite firstn_length, Nat.min_l by lia. symmetry. apply nth_error_repeat. lia.
  - assert (NX : forall i, In i order -> a + i <> j).
    { intros i Hi X. assert (existsb (fun i => a + i =? j) order = true); [|congruence].
      apply existsb_exists. exists i. split; auto. lia. }
    destruct (Nat.lt_ge_cases j a) as [Hj|Hj].
    + rewrite nth_error_app1 by (rewrite firstn_length; lia). symmetry.
      rewrite <- (firstn_skipn a old) at 2. rewrite nth_error_app1; auto. rewrite firstn_length. lia.
    + destruct (Nat.lt_ge_cases j (a + n)) as [Hj2|Hj2].
      * exfalso. apply (NX (j - a)); [|lia]. apply (Permutation_in _ (Permutation_sym HP)). apply in_seq. lia.
      * rewrite (proj2 (nth_error_None old j)) by lia. symmetry. apply nth_error_None.
        rewrite app_length, firstn_length, repeat_length. lia.
Qed.

Section Codes.
  Context {C : Type} (code : vec C -> N) (err : N).

  Lemma morton_code_set_ok o1 o2 old lo cnt mcnt :
    0 < cnt -> cnt <= mcnt -> cnt <= length lo -> length old = mcnt ->
    Permutation o1 (seq 0 cnt) -> Permutation o2 (seq 0 (mcnt - cnt)) ->
    morton_code_set code err o1 o2 old lo cnt mcnt = Ok (map code (firstn cnt lo) ++ repeat err (mcnt - cnt)).
  Proof.
    intros H0 H1 H2 H3 P1 P2. unfold morton_code_set. replace (mcnt <? cnt) with false by lia.
    unfold kernel_call at 1. replace (cnt =? 0) with false by lia.
    destruct lo as [|d lo'] eqn:EL; [simpl in H2; lia|]. rewrite <- EL in *. clear EL lo'.
    change (par_for o1 _ old) with (par_write (fun i => p <- aget lo i ;; Ok (code p)) o1 old).
    rewrite (par_write_prefix _ (fun i => code (nth i lo d)) o1 cnt old); [|auto|lia|].
    2:{ intros i Hi. rewrite (aget_lt _ i d) by lia. reflexivity. }
    cbn [rbind].
    assert (EM : map (fun i => code (nth i lo d)) (seq 0 cnt) = map code (firstn cnt lo)).
    { rewrite <- (map_map (fun i => nth i lo d) code). f_equal. apply (list_eq_nth d).
      - rewrite map_length, seq_length, firstn_length. lia.
      - intros i Hi. rewrite map_length, seq_length in Hi. rewrite (nth_indep _ d (nth 0 lo d)) by (rewrite map_length, seq_length; lia).
        rewrite (map_nth (fun i => nth i lo d)), seq_nth by lia. cbn [Nat.add].
        rewrite <- (firstn_skipn cnt lo) at 1. apply app_nth1. rewrite firstn_length. lia. }
    rewrite EM. destruct (Nat.ltb_spec cnt mcnt) as [HL|HL].
    - unfold kernel_call. replace (mcnt - cnt =? 0) with false by lia.
      rewrite (par_shift err (mcnt - cnt) o2 P2 cnt).
      + f_equal. f_equal. rewrite firstn_app, map_length, firstn_length. replace (cnt - Nat.min cnt (length lo)) with 0 by lia.
        simpl. rewrite app_nil_r. apply firstn_all2. rewrite map_length, firstn_length. lia.
      + rewrite app_length, map_length, firstn_length, skipn_length. lia.
    - replace (mcnt - cnt) with 0 by lia. rewrite skipn_all2 by lia. reflexivity.
  Qed.

  Lemma fill_buffer_index_ok order buf len : Permutation order (seq 0 len) -> length buf = len -> fill_buffer_index order buf len = Ok (seq 0 len).
  Proof.
    intros HP HL. unfold fill_buffer_index. replace (length buf <? len) with false by lia.
    destruct (Nat.eqb_spec len 0) as [->|NZ]; [destruct buf; [reflexivity|discriminate]|].
    unfold kernel_call. replace (len =? 0) with false by lia.
    change (par_for order _ buf) with (par_write (fun i => Ok i) order buf).
    rewrite (par_write_ok _ (fun i => i) order len buf); auto. now rewrite map_id.
  Qed.
End Codes.

(** a sorted list is cut by a downward closed test *)
Lemma sorted_cut {A} (key : A -> N) e (l : list A) : StronglySorted (fun a b => (key a <= key b)%N) l ->
  l = filter (fun x => key x <? e)%N l ++ filter (fun x => negb (key x <? e)%N) l.
Proof.
  induction 1 as [|a l HS IH HF]; [reflexivity|]. cbn [filter]. destruct (N.ltb_spec (key a) e) as [Ha|Ha]; cbn [negb].
  - simpl. now rewrite <- IH.
  - assert (E0 : filter (fun x => key x <? e)%N l = []).
    { clear - Ha HF. induction l as [|b l IH]; auto. inversion HF; subst. cbn [filter].
      replace (key b <? e)%N with false by lia. auto. }
    assert (E1 : filter (fun x => negb (key x <? e)%N) l = l).
    { rewrite E0 in IH. simpl in IH. now symmetry. }
    rewrite E0, E1. reflexivity.
Qed.
Lemma filter_perm {A} (f : A -> bool) l l' : Permutation l l' -> Permutation (filter f l) (filter f l').
Proof.
  induction 1; cbn [filter]; auto.
  - destruct (f x); auto.
  - destruct (f x), (f y); auto. apply perm_swap.
  - etransitivity; eauto.
Qed.
Lemma map_fst_combine {A B} (l : list A) (r : list B) : length l = length r -> map fst (combine l r) = l.
Proof. revert r. induction l as [|a l IH]; intros [|b r] H; simpl in *; auto; try discriminate. f_equal. apply IH. lia. Qed.
Lemma map_snd_combine {A B} (l : list A) (r : list B) : length l = length r -> map snd (combine l r) = r.
Proof. revert r. induction l as [|a l IH]; intros [|b r] H; simpl in *; auto; try discriminate. f_equal. apply IH. lia. Qed.
Lemma firstn_map' {A B} (f : A -> B) n l : firstn n (map f l) = map f (firstn n l).
Proof. revert l. induction n as [|n IH]; intros [|a l]; simpl; auto. f_equal. auto. Qed.

Section Sort.
  Context {C : Type} (code : vec C -> N) (err b : N).
  Hypothesis Herr : (2 ^ b <= err)%N.

  (** after sorting, the first [cnt] entries are the objects, ordered by code, and the padding comes last *)
  Lemma sort_morton_set_ok oi sort stencil oldmap codes cnt mcnt :
    cnt <= mcnt -> (exists e, mcnt = 2 ^ e) -> (N.of_nat mcnt < 2 ^ 32)%N ->
    Permutation oi (seq 0 mcnt) -> length oldmap = mcnt -> (forall len inc n, Permutation (sort len inc n) (seq 0 n)) ->
    length codes = cnt -> (forall c, In c codes -> (c < 2 ^ b)%N) ->
    exists keys map, sort_morton_set oi sort stencil oldmap (codes ++ repeat err (mcnt - cnt)) mcnt = Ok (keys, map) /\
      length keys = mcnt /\ length map = mcnt /\
      StronglySorted N.le (firstn cnt keys) /\
      Permutation (firstn cnt map) (seq 0 cnt) /\
      forall i, i < cnt -> nth i keys 0%N = nth (nth i map 0) codes 0%N.
  Proof.
    intros H1 H2 H3 P1 L1 PS LC HC. unfold sort_morton_set. rewrite fill_buffer_index_ok by auto. cbn [rbind].
    set (K := codes ++ repeat err (mcnt - cnt)).
    assert (LK : length K = mcnt) by (unfold K; rewrite app_length, repeat_length; lia).
    assert (SW : strict_weak N.ltb).
    { split; intros *; rewrite ?N.ltb_ge, ?N.ltb_lt; clear; lia. }
    destruct (C22_sort_by_key N nat N.ltb stencil mcnt sort K (seq 0 mcnt) SW H2 H3 PS) as (keys & mp & E & A1 & A2 & A3 & A4 & _ & _).
    { lia. } { rewrite seq_length. lia. }
    rewrite LK in A1. rewrite seq_length in A2.
    rewrite (firstn_all2 keys) in A3, A4 by lia. rewrite (firstn_all2 mp) in A4 by lia.
    rewrite (firstn_all2 K) in A4 by lia. rewrite (firstn_all2 (seq 0 mcnt)) in A4 by (rewrite seq_length; lia).
    exists keys, mp. split; [exact E|]. split; [exact A1|]. split; [exact A2|].
    set (L := combine keys mp) in *.
    assert (SL : StronglySorted (fun p q : N * nat => (fst p <= fst q)%N) L).
    { unfold sorted_by in A3. assert (LL : length keys = length mp) by lia. unfold L. clear - A3 LL.
      revert mp LL. induction A3 as [|a k HS IH HF]; intros [|x mp] LL; simpl in *; try discriminate; constructor; auto.
      apply Forall_forall. intros [k' x'] Hin. apply in_combine_l in Hin. rewrite Forall_forall in HF. specialize (HF _ Hin).
      cbn [fst]. lia. }
    assert (CUT := sorted_cut fst err L SL).
    assert (SQ : seq 0 mcnt = seq 0 cnt ++ seq cnt (mcnt - cnt)).
    { replace mcnt with (cnt + (mcnt - cnt)) at 1 by lia. apply seq_app. }
    assert (CK : combine K (seq 0 mcnt) = combine codes (seq 0 cnt) ++ combine (repeat err (mcnt - cnt)) (seq cnt (mcnt - cnt))).
    { rewrite SQ. unfold K. clear - LC. revert LC. generalize (seq cnt (mcnt - cnt)) as r. generalize (repeat err (mcnt - cnt)) as q.
      intros q r LC. assert (LS : length codes = length (seq 0 cnt)) by (now rewrite seq_length).
      revert LS. generalize (seq 0 cnt) as s. clear LC. induction codes as [|c l IH]; intros [|x s] LS; simpl in *; try discriminate; auto.
      f_equal. apply IH. lia. }
    assert (FP : Permutation (filter (fun x : N * nat => fst x <? err)%N L) (combine codes (seq 0 cnt))).
    { etransitivity; [apply filter_perm; exact A4|]. rewrite CK, filter_app.
      assert (X1 : filter (fun x : N * nat => fst x <? err)%N (combine codes (seq 0 cnt)) = combine codes (seq 0 cnt)).
      { clear - HC Herr. revert HC. generalize (seq 0 cnt) as s. induction codes as [|c l IH]; intros [|x s] HC; simpl; auto.
        assert (c < 2 ^ b)%N by (apply HC; simpl; auto). replace (c <? err)%N with true by lia. f_equal. apply IH. intros; apply HC; simpl; auto. }
      assert (X2 : forall n s, filter (fun x : N * nat => fst x <? err)%N (combine (repeat err n) s) = []).
      { clear. induction n as [|n IH]; intros [|x s]; simpl; auto. rewrite N.ltb_irrefl. apply IH. }
      rewrite X1, X2, app_nil_r. reflexivity. }
    assert (LF : length (filter (fun x : N * nat => fst x <? err)%N L) = cnt).
    { rewrite (Permutation_length FP), combine_length, seq_length. lia. }
    assert (FL : firstn cnt L = filter (fun x : N * nat => fst x <? err)%N L).
    { rewrite CUT at 1. rewrite firstn_app, LF, Nat.sub_diag. simpl. rewrite app_nil_r. apply firstn_all2. lia. }
    assert (KE : keys = map fst L) by (unfold L; rewrite map_fst_combine; auto; lia).
    assert (ME : mp = map snd L) by (unfold L; rewrite map_snd_combine; auto; lia).
    split; [|split].
    - rewrite KE, firstn_map'. clear - SL. revert SL. generalize cnt. induction L as [|a l IH]; intros n SL; [destruct n; constructor|].
      destruct n as [|n]; simpl; [constructor|]. inversion SL as [|? ? S1 S2]; subst. constructor; [now apply IH|].
      apply Forall_forall. intros x Hx. apply in_map_iff in Hx. destruct Hx as (p & <- & Hp). rewrite Forall_forall in S2. apply S2.
      rewrite <- (firstn_skipn n l). apply in_or_app; auto.
    - rewrite ME, firstn_map', FL. transitivity (map snd (combine codes (seq 0 cnt))); [now apply Permutation_map|].
      rewrite map_snd_combine; [reflexivity|rewrite seq_length; lia].
    - intros i Hi. assert (HN : nth i L (0%N, 0) = (nth i keys 0%N, nth i mp 0)) by (unfold L; apply combine_nth; lia).
      assert (In (nth i L (0%N, 0)) (combine codes (seq 0 cnt))).
      { apply (Permutation_in _ FP). rewrite <- FL.
        rewrite <- (firstn_skipn cnt L) at 1. rewrite app_nth1; [apply nth_In|]; rewrite firstn_length; unfold L; rewrite combine_length; lia. }
      rewrite HN in H. destruct (In_nth _ _ (0%N, 0) H) as (j & Hj & Ej). rewrite combine_length, seq_length in Hj.
      rewrite combine_nth in Ej by (rewrite seq_length; lia). rewrite seq_nth in Ej by lia. injection Ej as <- <-. reflexivity.
  Qed.
End Sort.
