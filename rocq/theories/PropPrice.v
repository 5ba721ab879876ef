(** Properties C33-C38: currency conversion. *)
From Coq Require Import Lia.
From Verif Require Import Base BaseFacts Money Price SpecPrice PriceFacts PropTxn.
Open Scope Z_scope.

(** ** Worlds with a given order at one place *)
(** The elements of [l] at the positions [is]. *)
Definition pick {A} (l : list A) (is : list nat) : list A :=
  flat_map (fun i => match nth_error l i with Some x => [x] | None => [] end) is.
Lemma pick_seq {A} (l : list A) : pick l (seq 0 (length l)) = l.
Proof.
  assert (G : forall pre, flat_map (fun i => match nth_error (pre ++ l) i with Some x => [x] | None => [] end) (seq (length pre) (length l)) = l).
  { induction l as [|x l IH]; intros pre; cbn; auto. rewrite nth_error_app2 by lia. rewrite Nat.sub_diag. cbn. f_equal.
    specialize (IH (pre ++ [x])). rewrite <- app_assoc in IH. cbn in IH. rewrite app_length in IH. cbn in IH. rewrite Nat.add_1_r in IH. auto. }
  apply (G []).
Qed.
Lemma Permutation_pick {A} (l : list A) is : Permutation is (seq 0 (length l)) -> Permutation (pick l is) l.
Proof.
  intros H. eapply Permutation_trans; [apply (Permutation_flat_map _ H)|]. change (Permutation (pick l (seq 0 (length l))) l).
  rewrite pick_seq. apply Permutation_refl.
Qed.
Lemma pick_S {A} (x : A) l is : pick (x :: l) (map S is) = pick l is.
Proof. unfold pick. rewrite flat_map_concat_map, map_map, <- flat_map_concat_map. auto. Qed.
Lemma pick_map {A B} (f : A -> B) l is : pick (map f l) is = map f (pick l is).
Proof.
  unfold pick. induction is as [|i is IH]; cbn; auto. rewrite map_app, IH, nth_error_map. destruct (nth_error l i); auto.
Qed.
Lemma nth_pick {A} (l : list A) is : (forall i, In i is -> (i < length l)%nat) -> forall j,
  nth_error (pick l is) j = match nth_error is j with Some i => nth_error l i | None => None end.
Proof.
  induction is as [|i is IH]; intros H j; cbn.
  - destruct j; auto.
  - assert (E : exists x, nth_error l i = Some x).
    { destruct (nth_error l i) eqn:E; eauto. apply nth_error_None in E. specialize (H i (or_introl eq_refl)). lia. }
    destruct E as (x & E). rewrite E. cbn. destruct j; cbn; [auto|]. apply IH. intros k Hk. apply H. right. auto.
Qed.
Lemma pick_exists {A} (l l' : list A) : Permutation l l' -> exists is, Permutation is (seq 0 (length l)) /\ pick l is = l'.
Proof.
  induction 1 as [|x l l' _ (is & P & E)|x y l|l l' l'' H1 (is & P & E) H2 (js & P' & E')].
  - exists []. split; auto.
  - exists (O :: map S is). split.
    + cbn. constructor. rewrite <- seq_shift. apply Permutation_map. auto.
    + cbn [pick flat_map nth_error app]. f_equal. rewrite <- E. apply pick_S.
  - exists (1%nat :: O :: map S (map S (seq 0 (length l)))). split.
    + cbn. rewrite !seq_shift. constructor.
    + cbn [pick flat_map nth_error app]. do 2 f_equal.
      change (pick (y :: x :: l) (map S (map S (seq 0 (length l)))) = l). rewrite !pick_S. apply pick_seq.
  - assert (L : length l' = length l) by (symmetry; apply Permutation_length; auto). rewrite L in P'.
    assert (Li : length is = length l) by (rewrite (Permutation_length P), seq_length; auto).
    exists (pick is js). split.
    + eapply Permutation_trans; [|exact P]. apply Permutation_pick. rewrite Li. auto.
    + rewrite <- E', <- E.
      assert (R : forall i, In i is -> (i < length l)%nat).
      { intros i Hi. eapply Permutation_in in Hi; [|exact P]. apply in_seq in Hi. lia. }
      clear -R. induction js as [|j js IH]; auto.
      change (pick l ((match nth_error is j with Some x => [x] | None => [] end) ++ pick is js) =
              (match nth_error (pick l is) j with Some x => [x] | None => [] end) ++ pick (pick l is) js).
      rewrite <- IH. unfold pick at 1. rewrite flat_map_app. unfold pick at 3. f_equal.
      rewrite (nth_pick l is R). destruct (nth_error is j) as [i|]; cbn; auto. rewrite app_nil_r. auto.
Qed.
(** [w] with the order at [site] given by positions. *)
Definition reorder (w : world) (site : nat) (is : list nat) : world :=
  {| w_lower := w_lower w; w_numeric := w_numeric w; w_rx := w_rx w; w_rx_ok := w_rx_ok w; w_width := w_width w; w_read := w_read w;
     w_glob := w_glob w; w_two_timer := w_two_timer w; w_now := w_now w;
     w_ord := fun n A l => if Nat.eqb n site then (if Nat.eqb (length l) (length is) then pick l is else l) else w_ord w n A l |}.
Lemma reorder_ok w site is : world_ok w -> Permutation is (seq 0 (length is)) -> world_ok (reorder w site is).
Proof.
  intros [H1 H2] P. split; auto. intros n A l. cbn. destruct (Nat.eqb n site); auto.
  destruct (Nat.eqb_spec (length l) (length is)) as [E|]; auto. apply Permutation_pick. rewrite E. auto.
Qed.

(** ** C33 *)
Theorem C33_later_ignored : forall w site cur date ps,
  conversion w site cur date ps = conversion w site cur date (filter (fun p => pr_date p <=? date) ps).
Proof.
  intros w site cur date ps.
  assert (E : prices_nodup date (filter (fun p => pr_date p <=? date) ps) = prices_nodup date ps).
  { unfold prices_nodup. generalize (@nil ((str * str) * price)). induction ps as [|p ps IH]; intros m; cbn; auto.
    destruct (Z.leb_spec (pr_date p) date); cbn; auto. rewrite IH. f_equal. unfold nodup_step.
    destruct (Z.ltb_spec date (pr_date p)); auto. lia. }
  unfold conversion, conv_paths, conv_nodes. rewrite E. auto.
Qed.
Print Assumptions C33_later_ignored.
(** Price lists with the same usable prices have the same possible results. *)
Theorem C33_only_latest : forall cur date ps ps', (forall p, usable date ps p <-> usable date ps' p) ->
  forall r, possible cur date ps r <-> possible cur date ps' r.
Proof.
  assert (G : forall cur date ps ps', (forall p, usable date ps p <-> usable date ps' p) ->
     forall r, possible cur date ps r -> possible cur date ps' r).
  { intros cur date ps ps' H r (w & site & Hw & E).
    set (l := map snd (prices_nodup date ps)). set (l' := map snd (prices_nodup date ps')).
    assert (P : Permutation l' l).
    { apply NoDup_Permutation; try apply usable_NoDup. intros p. unfold l, l'. rewrite !usable_iff. symmetry. auto. }
    assert (P2 : Permutation l' (w_ord w site _ l)) by (eapply Permutation_trans; [exact P|symmetry; apply Hw]).
    destruct (pick_exists _ _ P2) as (is & Pi & Ei).
    assert (Li : length is = length l') by (rewrite (Permutation_length Pi), seq_length; auto).
    exists (reorder w site is), site. split; [apply reorder_ok; auto; rewrite Li; auto|].
    rewrite <- E. unfold conversion, conv_paths, conv_nodes. fold l l'.
    assert (O0 : w_ord (reorder w site is) site _ l' = w_ord w site _ l).
    { cbn. rewrite Nat.eqb_refl, Li, Nat.eqb_refl. auto. }
    assert (O1 : forall n A (x : list A), (site < n)%nat -> w_ord (reorder w site is) n A x = w_ord w n A x).
    { intros n A x Hn. cbn. destruct (Nat.eqb_spec n site); auto. lia. }
    rewrite O0, !O1 by lia. auto. }
  intros cur date ps ps' H r. split; apply G; auto. intros p. symmetry. auto.
Qed.
Print Assumptions C33_only_latest.

Definition mk (d : Z) (c : String.string) (a : Z) (c' : String.string) : price :=
  {| pr_date := d; pr_com := L c; pr_amount := qz a; pr_cur := L c' |}.
(** The second price replaces the first, the third is the same date, the last one too late. *)
Definition ps33 : list price := [mk 1 "EUR" 2 "USD"; mk 5 "USD" 3 "EUR"; mk 5 "EUR" 4 "USD"; mk 9 "EUR" 8 "USD"].
Example C33_case : usable 7 ps33 (mk 5 "USD" 3 "EUR") /\ map snd (prices_nodup 7 ps33) = [mk 5 "USD" 3 "EUR"].
Proof. split; [|vm_compute; reflexivity]. apply usable_iff. vm_compute. auto. Qed.
Definition wid : world :=
  {| w_lower := ascii_lower; w_numeric := fun _ => false; w_rx := fun _ _ => false;
     w_rx_ok := fun _ => true; w_width := None; w_read := fun _ => None; w_glob := fun _ => None; w_two_timer := fun _ => None;
     w_now := 0; w_ord := fun _ _ l => l |}.
Lemma wid_ok : world_ok wid.
Proof. split; [intros; apply Permutation_refl|exact ascii_lower_idem]. Qed.

(** ** C34 *)
Theorem C34_chain_of_prices : forall w site cur date ps mults c m, world_ok w ->
  conversion w site cur date ps = Ok mults -> hget str_eqb c mults = Some m ->
  chain (usable date ps) cur c m.
Proof.
  intros w site cur date ps mults c m Hw E H. pose proof (conversion_spec w site cur date ps Hw) as S. cbn zeta in S. rewrite E in S.
  destruct S as (_ & S & _). destruct (S _ _ H) as (_ & d & k & _ & _ & C & _). auto.
Qed.
Print Assumptions C34_chain_of_prices.
Definition ps34 : list price := [mk 1 "A" 2 "EUR"; mk 3 "A" 5 "B"; mk 2 "C" 7 "B"].
Example C34_case : match conversion wid 0 (L "EUR") 4 ps34 with
  | Ok m => map (fun x => (fst x, this (snd x))) m = [(L "A", 2#1); (L "B", 2#5); (L "C", 14#5)]
  | _ => False
  end.
Proof. vm_compute. reflexivity. Qed.

(** ** C35 *)
Lemma chain_connected U t c r : chain U t c r -> connected U t c.
Proof. induction 1; econstructor; eauto; constructor. Qed.
Theorem C35_convertible_iff_connected : forall w site cur date ps mults, world_ok w ->
  conversion w site cur date ps = Ok mults ->
  forall c, (exists m, hget str_eqb c mults = Some m) <-> (c <> cur /\ connected (usable date ps) cur c).
Proof.
  intros w site cur date ps mults Hw E c. pose proof (conversion_spec w site cur date ps Hw) as S. cbn zeta in S. rewrite E in S.
  destruct S as (_ & S1 & S2). split.
  - intros (m & H). destruct (S1 _ _ H) as (N & d & k & _ & _ & C & _). split; auto. eapply chain_connected; eauto.
  - intros [N C]. auto.
Qed.
Print Assumptions C35_convertible_iff_connected.
Theorem C35_one_rate_each : forall w site cur date ps mults, world_ok w ->
  conversion w site cur date ps = Ok mults -> NoDup (map fst mults).
Proof.
  intros w site cur date ps mults Hw E. pose proof (conversion_spec w site cur date ps Hw) as S. cbn zeta in S. rewrite E in S. apply S.
Qed.
Print Assumptions C35_one_rate_each.
(** D is priced, but in a commodity that leads nowhere. *)
Example C35_case : match conversion wid 0 (L "EUR") 4 (mk 2 "D" 1 "X" :: ps34) with
  | Ok m => map fst m = [L "A"; L "B"; L "C"]
  | _ => False
  end.
Proof. vm_compute. reflexivity. Qed.

(** ** C36 *)
Theorem C36_shortest_in_time : forall w site cur date ps mults c m, world_ok w ->
  conversion w site cur date ps = Ok mults -> hget str_eqb c mults = Some m ->
  exists d k, (exists p, usable date ps p /\ pr_date p = d /\ (pr_com p = c \/ pr_cur p = c)) /\
    timed (usable date ps) cur date c d k m /\
    forall k' r, timed (usable date ps) cur date c d k' r -> k <= k'.
Proof.
  intros w site cur date ps mults c m Hw E H. pose proof (conversion_spec w site cur date ps Hw) as S. cbn zeta in S. rewrite E in S.
  destruct S as (_ & S & _). destruct (S _ _ H) as (_ & d & k & P & T & _ & L). exists d, k. auto.
Qed.
Print Assumptions C36_shortest_in_time.
(** Two ways from K to EUR: through A, all on day 9, or through B and back to day 5. *)
Definition ps36 : list price := [mk 5 "B" 100 "EUR"; mk 9 "K" 1 "B"; mk 9 "A" 2 "EUR"; mk 9 "K" 3 "A"].
Example C36_case : match conversion wid 0 (L "EUR") 10 ps36 with
  | Ok m => hget str_eqb (L "K") m = Some (qz 6)
  | _ => False
  end.
Proof. vm_compute. reflexivity. Qed.

(** ** C37 *)
Theorem C37_outcomes : forall w site cur date ps, world_ok w ->
  (exists mults, conversion w site cur date ps = Ok mults) \/
  (conversion w site cur date ps = Panic PDivZero /\ exists p, usable date ps p /\ pr_amount p = 0%Qc).
Proof.
  intros w site cur date ps Hw. pose proof (conversion_spec w site cur date ps Hw) as S. cbn zeta in S.
  destruct (conversion w site cur date ps) as [m|e|x]; [eauto|contradiction|]. right. destruct S as [-> S]. auto.
Qed.
Print Assumptions C37_outcomes.
(** The loop ends before its counter runs out: one more turn, or any number, changes nothing. *)
Theorem C37_loop_ends : forall es q s n, (length q <= n)%nat -> dijkstra n es q s = dijkstra (length q) es q s.
Proof. intros es q s n H. apply dijkstra_more; auto. Qed.
Print Assumptions C37_loop_ends.
Example C37_case : conversion wid 0 (L "EUR") 4 [mk 1 "EUR" 0 "A"] = Panic PDivZero /\
  conversion wid 0 (L "A") 4 [mk 1 "EUR" 0 "A"] = Ok [(L "EUR", qz 0)].
Proof. split; vm_compute; reflexivity. Qed.

(** ** C38 *)
Definition wrev : world :=
  {| w_lower := ascii_lower; w_numeric := fun _ => false; w_rx := fun _ _ => false;
     w_rx_ok := fun _ => true; w_width := None; w_read := fun _ => None; w_glob := fun _ => None; w_two_timer := fun _ => None;
     w_now := 0; w_ord := fun n _ l => if Nat.eqb n 0 then rev l else l |}.
Lemma wrev_ok : world_ok wrev.
Proof. split; [intros n A l; cbn; destruct (Nat.eqb n 0); [symmetry; apply Permutation_rev|apply Permutation_refl]|exact ascii_lower_idem]. Qed.
(** Two chains of the same length in time. *)
Definition ps38 : list price := [mk 9 "A" 2 "EUR"; mk 9 "K" 3 "A"; mk 9 "B" 5 "EUR"; mk 9 "K" 7 "B"].
Theorem C38_deterministic_refuted : exists w w' cur date ps m m' c, world_ok w /\ world_ok w' /\
  conversion w 0 cur date ps = Ok m /\ conversion w' 0 cur date ps = Ok m' /\ hget str_eqb c m <> hget str_eqb c m'.
Proof.
  exists wid, wrev, (L "EUR"), 9, ps38.
  set (r := conversion wid 0 (L "EUR") 9 ps38). set (r' := conversion wrev 0 (L "EUR") 9 ps38).
  exists (match r with Ok m => m | _ => [] end), (match r' with Ok m => m | _ => [] end), (L "K").
  split; [apply wid_ok|]. split; [apply wrev_ok|]. split; [vm_compute; reflexivity|]. split; [vm_compute; reflexivity|].
  intros H. apply (f_equal (fun o => match o with Some q => this q | None => 0%Q end)) in H. vm_compute in H. discriminate.
Qed.
Print Assumptions C38_deterministic_refuted.
(** If the prices agree with some value of each commodity, the rates are those of the values. *)
Definition agree (U : price -> Prop) (v : str -> Qc) : Prop :=
  forall p, U p -> pr_amount p <> 0%Qc /\ v (pr_com p) = (pr_amount p * v (pr_cur p))%Qc.
Lemma chain_value U t v c r : agree U v -> chain U t c r -> v c = (r * v t)%Qc.
Proof.
  intros A. induction 1 as [|p r Up _ IH|p r Up N _ IH].
  - ring.
  - destruct (A p Up) as [_ ->]. rewrite IH. ring.
  - destruct (A p Up) as [_ E]. rewrite IH in E. assert (E2 : v (pr_cur p) = (r * v t / pr_amount p)%Qc).
    { rewrite E. field. auto. } rewrite E2. field. auto.
Qed.
Theorem C38_consistent_prices_partial : forall w w' site site' cur date ps v, world_ok w -> world_ok w' ->
  agree (usable date ps) v -> v cur <> 0%Qc ->
  exists m m', conversion w site cur date ps = Ok m /\ conversion w' site' cur date ps = Ok m' /\
    forall c, hget str_eqb c m = hget str_eqb c m' /\ forall q, hget str_eqb c m = Some q -> q = (v c / v cur)%Qc.
Proof.
  intros w w' site site' cur date ps v Hw Hw' A N.
  assert (O : forall w site, world_ok w -> exists m, conversion w site cur date ps = Ok m).
  { intros w0 s0 H0. destruct (C37_outcomes w0 s0 cur date ps H0) as [H|(_ & p & Up & Z)]; auto. destruct (A p Up). contradiction. }
  destruct (O w site Hw) as (m & E). destruct (O w' site' Hw') as (m' & E'). exists m, m'. split; auto. split; auto.
  assert (V : forall w site m c q, world_ok w -> conversion w site cur date ps = Ok m -> hget str_eqb c m = Some q -> q = (v c / v cur)%Qc).
  { intros w0 s0 m0 c q H0 E0 Hq. pose proof (C34_chain_of_prices _ _ _ _ _ _ _ _ H0 E0 Hq) as C. apply (chain_value _ _ v) in C; auto.
    rewrite C. field. auto. }
  intros c. split; [|eauto].
  pose proof (C35_convertible_iff_connected _ _ _ _ _ _ Hw E c) as I. pose proof (C35_convertible_iff_connected _ _ _ _ _ _ Hw' E' c) as I'.
  destruct (hget str_eqb c m) as [q|] eqn:Eq, (hget str_eqb c m') as [q'|] eqn:Eq'; auto.
  - f_equal. rewrite (V w site m c q Hw E Eq), (V w' site' m' c q' Hw' E' Eq'). auto.
  - destruct (proj2 I' (proj1 I (ex_intro _ q eq_refl))) as (x & X). discriminate.
  - destruct (proj2 I (proj1 I' (ex_intro _ q' eq_refl))) as (x & X). discriminate.
Qed.
Print Assumptions C38_consistent_prices_partial.
Definition v34 (c : str) : Qc :=
  if str_eqb c (L "A") then qz 2 else if str_eqb c (L "B") then Q2Qc (2#5) else if str_eqb c (L "C") then Q2Qc (14#5) else 1%Qc.
Example C38_case : agree (usable 4 ps34) v34 /\ v34 (L "EUR") <> 0%Qc.
Proof.
  split; [|intros H; apply (f_equal this) in H; vm_compute in H; discriminate]. intros p Hp. apply usable_iff in Hp. vm_compute in Hp.
  destruct Hp as [<-|[<-|[<-|[]]]]; (split; [intros H; apply (f_equal this) in H; vm_compute in H; discriminate|]); apply Qc_is_canon; vm_compute; reflexivity.
Qed.
