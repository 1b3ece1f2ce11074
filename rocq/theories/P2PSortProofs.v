(** The order in which pieces are tried. *)
From Coq Require Import Permutation.
From Verif Require Import GoBase GoBaseProofs GoMap P2PServer.

Lemma list_set_app1 {A} (l l' : list A) n x : (n < List.length l)%nat -> list_set n x (l ++ l') = list_set n x l ++ l'.
Proof. revert n. induction l as [|y l IH]; intros [|n]; cbn; intros H; try lia; [easy|]. rewrite IH by lia. easy. Qed.
Lemma list_set_app2 {A} (l l' : list A) n x : list_set (List.length l + n) x (l ++ l') = l ++ list_set n x l'.
Proof. induction l as [|y l IH]; cbn; [easy|]. now rewrite IH. Qed.
Lemma swap_perm j l : (0 < j < List.length l)%nat -> Permutation (swap_at j l) l.
Proof.
  intros H. destruct (nth_error l (j - 1)) as [a|] eqn:A; [|apply nth_error_None in A; lia].
  apply nth_error_split in A as [l1 [l2 [-> L1]]]. destruct l2 as [|b l2]; [rewrite app_length in H; cbn in H; lia|].
  replace j with (List.length l1 + 1)%nat by lia. unfold swap_at. replace (List.length l1 + 1 - 1)%nat with (List.length l1 + 0)%nat by lia.
  rewrite !app_nth2_plus. cbn [nth]. rewrite !list_set_app2. cbn [list_set].
  apply Permutation_app_head. constructor.
Qed.
Lemma swap_len j l : List.length (swap_at j l) = List.length l.
Proof. unfold swap_at. now rewrite !list_set_length. Qed.
Lemma sift_perm cnt j : forall l rnd, (j < List.length l)%nat -> Permutation (fst (sift cnt j l rnd)) l.
Proof.
  induction j as [|j IH]; intros l rnd H; cbn [sift]; [easy|].
  destruct (less cnt rnd (S j) j) as [b rnd']. destruct b; [|easy].
  rewrite IH by (rewrite swap_len; lia). apply swap_perm. lia.
Qed.
Lemma sort_loop_perm cnt is : forall l rnd, (forall i, In i is -> (i < List.length l)%nat) ->
  Permutation (fst (fold_left (fun s i => sift cnt i (fst s) (snd s)) is (l, rnd))) l.
Proof.
  induction is as [|i is IH]; intros l rnd H; cbn [fold_left fst snd]; [easy|].
  destruct (sift cnt i l rnd) as [l' rnd'] eqn:E.
  pose proof (sift_perm cnt i l rnd (H i (or_introl eq_refl))) as P. rewrite E in P. cbn [fst] in P.
  rewrite IH; [exact P|]. intros k K. rewrite (Permutation_length P). now apply H; right.
Qed.
Lemma insertion_sort_perm cnt l rnd : Permutation (insertion_sort cnt l rnd) l.
Proof. apply sort_loop_perm. intros i H. apply in_seq in H. lia. Qed.
Lemma remove_one_perm x l l' : remove_one x l = Some l' -> Permutation l (x :: l').
Proof.
  revert l'. induction l as [|y l IH]; cbn; intros l'; [discriminate|]. destruct (Z.eqb_spec x y) as [<-|N]; [intros [= <-]; easy|].
  destruct (remove_one x l) as [l1|]; cbn; [|discriminate]. intros [= <-]. rewrite (IH l1 eq_refl). constructor.
Qed.
Lemma reorders_perm l l' : reorders l l' = true -> Permutation l l'.
Proof.
  revert l'. induction l as [|x l IH]; cbn; intros l'; [now destruct l'|].
  destruct (remove_one x l') as [l2|] eqn:R; [|discriminate]. intros H. rewrite (remove_one_perm _ _ _ R). constructor. now apply IH.
Qed.
Lemma sort_slice_perm cnt l rnd big l' : sort_slice cnt l rnd big = Some l' -> Permutation l' l.
Proof.
  unfold sort_slice. destruct (_ <=? _)%nat; [intros [= <-]; apply insertion_sort_perm|].
  destruct (reorders l big) eqn:R; [|discriminate]. intros [= <-]. now apply Permutation_sym, reorders_perm.
Qed.
Lemma same_peers_in l l' x : same_peers l l' = true -> In x l' -> In x l.
Proof.
  intros H I. apply reorders_perm in H. apply (in_map Z.of_nat) in I. apply (Permutation_in _ (Permutation_sym H)) in I.
  apply in_map_iff in I as [y [E I]]. now replace x with y by lia.
Qed.
