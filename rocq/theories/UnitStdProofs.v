From Verif Require Import Base NumModel RankSpec RankProofs ContrastSpec ContrastProofs LinModel StateModel StateSpec StateProofs KnotProofs UnitSpec UnitProofs.
Open Scope nat_scope.
Open Scope list_scope.

Section Units.
Variables c d : Qc.
Hypothesis Hc : (0 < c)%Qc.
Notation m := (conv c d).
Lemma to_2d_m x : to_2d (conv_arr c d x) = (fst (to_2d x), map (map m) (snd (to_2d x))).
Proof. destruct x as [q|l|k rows]; cbn; auto. f_equal. rewrite !map_map. reflexivity. Qed.
Lemma has_cols_m k x : has_cols k x -> has_cols k (conv_arr c d x).
Proof.
  intros [H1 H2]. unfold has_cols. rewrite to_2d_m. cbn [fst snd]. split; auto. rewrite Forall_map. eapply Forall_impl; [|exact H2]. intros r Hr. cbn. now rewrite map_length.
Qed.
Lemma rows_of_m xs : rows_of (map (conv_arr c d) xs) = map (map m) (rows_of xs).
Proof. unfold rows_of. induction xs as [|x xs IH]; cbn; auto. rewrite map_app, <- IH, to_2d_m. reflexivity. Qed.
Lemma sum_m rows j : Forall (fun r => j < length r) rows -> col_sum (map (map m) rows) j = (c * col_sum rows j + qn (length rows) * d)%Qc.
Proof.
  unfold col_sum. induction 1 as [|r rows Hr F IH]; cbn [map qsum fold_right length]; [cbn; change (qn 0) with 0%Qc; ring|].
  cbn [qsum] in *. rewrite IH, (nth_map_lt m r 0%Qc 0%Qc j Hr). unfold conv. replace (S (length rows)) with (length rows + 1) by lia. rewrite qn_S. ring.
Qed.
Lemma qn_nz n : 0 < n -> qn n <> 0%Qc.
Proof. intros H E. assert (X : (0 < qn n)%Qc) by (apply (qn_lt 0); lia). rewrite E in X. now apply Qclt_not_eq in X. Qed.
Lemma mean_m rows j : rows <> [] -> Forall (fun r => j < length r) rows -> col_mean (map (map m) rows) j = m (col_mean rows j).
Proof.
  intros N F. unfold col_mean. rewrite sum_m, map_length by auto. unfold conv. field. apply qn_nz. destruct rows; [easy|cbn; lia].
Qed.
Lemma dev_m rows j : rows <> [] -> Forall (fun r => j < length r) rows -> col_dev (map (map m) rows) j = (c * c * col_dev rows j)%Qc.
Proof.
  intros N F. unfold col_dev. rewrite mean_m by auto. generalize (col_mean rows j). intros q. clear N. induction F as [|r rows Hr F IH]; cbn [map qsum]; [ring|].
  cbn [qsum] in *. rewrite IH, (nth_map_lt m r 0%Qc 0%Qc j Hr). unfold conv. ring.
Qed.
Lemma rows_wide k xs j : Forall (has_cols k) xs -> j < k -> Forall (fun r => j < length r) (rows_of xs).
Proof.
  intros F Hj. unfold rows_of. induction F as [|x xs [_ Hx] F IH]; cbn; [constructor|]. apply Forall_app. split; auto. eapply Forall_impl; [|exact Hx]. intros r Hr. cbn in Hr. lia.
Qed.
Lemma by_column_m f g k x y : has_cols k x -> (forall j q, j < k -> f j (m q) = g j q) -> by_column f (conv_arr c d x) y -> by_column g x y.
Proof.
  intros [Hk Hx] E B. destruct x as [q|l|n rows]; cbn [conv_arr to_2d fst snd] in *; subst k; inversion B; subst.
  - rewrite E by lia. constructor.
  - rewrite map_map. erewrite map_ext; [constructor|]. intros q. apply E. lia.
  - rewrite map_length in *. constructor; auto. intros i j Hi Hj. rewrite H4 by auto. rewrite <- E by auto. f_equal. unfold get.
    rewrite (nth_map_lt (map m) rows [] [] i Hi). apply (nth_map_lt m). rewrite Forall_forall in Hx. rewrite (Hx (nth i rows [])); auto. now apply nth_In.
Qed.
Lemma by_column_then f k x y : has_cols k x -> by_column f x y -> by_column (fun j q => m (f j q)) x (conv_arr c d y).
Proof.
  intros [Hk Hx] B. destruct B as [q|l|n rows rows' L S G]; cbn [conv_arr].
  - constructor.
  - rewrite map_map. constructor.
  - constructor; [now rewrite map_length|rewrite Forall_map; eapply Forall_impl; [|exact S]; intros r Hr; cbn; now rewrite map_length|].
    intros i j Hi Hj. rewrite <- G by auto. unfold get. rewrite (nth_map_lt (map m) rows' [] []) by lia. apply (nth_map_lt m). rewrite Forall_forall in S. rewrite (S (nth i rows' [])); auto. apply nth_In. lia.
Qed.
End Units.
