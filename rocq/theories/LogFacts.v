(* The lines printed by the commands of driver.sh. *)
From Coq Require Import Ascii String List ZArith Bool Arith Lia Permutation.
From Verif Require Import Base BaseFacts Quat ModelSequence ModelWilliamson ModelEquivalence ModelMatrices ModelGraph ModelRowsum ModelFourier ModelMatching ModelWrite TextFacts
  FolderFacts ModelMain MainThms ModelLog LogFolder LogText SpecSearch SpecLog Spec.
Import ListNotations.
Open Scope nat_scope.
Notation length := List.length.
#[local] Opaque usize_to_string isize_to_string seconds.

Ltac plain_tac := first [assumption | apply isize_plain | apply count_plain | apply usize_plain; lia | apply seconds_plain; first [assumption | lia | auto]].
Ltac hush_tac :=
  rewrite <- ?app_assoc;
  repeat lazymatch goal with
  | |- has _ (lit _) = false => reflexivity
  | |- has _ [] = false => reflexivity
  | |- has _ (lit ?a ++ lit ?b ++ ?r) = false => let c := eval vm_compute in (String.append a b) in change (lit a ++ lit b ++ r) with (lit c ++ r)
  | |- has _ (lit ?a ++ lit ?b) = false => let c := eval vm_compute in (String.append a b) in change (lit a ++ lit b) with (lit c)
  | |- has _ (lit _ ++ _ ++ _) = false => apply hush; [plain_tac|reflexivity|reflexivity|]
  | |- has _ (lit _ ++ _) = false => apply hush_end; [plain_tac|reflexivity|reflexivity]
  | |- has _ (_ ++ _) = false => apply hush_start; [plain_tac|reflexivity|]
  | |- has _ _ = false => apply hush_only; [plain_tac|reflexivity]
  end.
Ltac quiet_tac := unfold quiet, p_wts, p_qts, p_pairs, p_red, p_hm; do 5 (split; [hush_tac; fail|]); first [left; hush_tac; fail | right; hush_tac; fail].

Lemma tag_lit t : tag_to_string t = lit (match t with TW => "W" | TX => "X" | TY => "Y" | TZ => "Z" end).
Proof. now destruct t. Qed.
Lemma number_plain s : number_text s -> plain s.
Proof. intros (H & F). split; auto. eapply Forall_impl; [|exact F]. intros c. vm_compute. tauto. Qed.

Lemma quiet_nil : quiet []. Proof. quiet_tac. Qed.
Lemma quiet_generated c a b : (0 <= c)%Z -> quiet (lit "Generated " ++ usize_to_string c ++ lit " pairs for pairing " ++ tag_to_string a ++ tag_to_string b).
Proof. intros H. rewrite !tag_lit. destruct a, b; quiet_tac. Qed.
Lemma quiet_warning what tags e : what = lit "PSD" \/ what = lit "CPSD" -> (forall s, e = Some s -> number_text s) -> Forall quiet (warning what tags e).
Proof.
  intros Hw H. destruct e as [s|]; [|constructor]. constructor; [|constructor]. specialize (H s eq_refl). apply number_plain in H.
  destruct tags as [a b]. cbn [fst snd]. rewrite !tag_lit. destruct Hw as [-> | ->]; destruct a, b; quiet_tac.
Qed.
Lemma quiet_found l r : quiet (found l r). Proof. unfold found. quiet_tac. Qed.
Lemma quiet_quad q : quiet (quad_debug q). Proof. destruct q as [[[a b] c] d]. unfold quad_debug. quiet_tac. Qed.

(* ---- pairs ---- *)

Lemma fold_inv {A B} (P : A -> Prop) (f : A -> B -> option A) : (forall a b a', P a -> f a b = Some a' -> P a') ->
  forall l a a', P a -> fold_m f l a = Some a' -> P a'.
Proof.
  intros H. induction l as [|b l IH]; intros a a' Ha E; cbn [fold_m] in E; [congruence|].
  destruct (f a b) as [c|] eqn:Ec; [|discriminate]. cbn [bind] in E. eapply IH; [|exact E]. eapply H; eauto.
Qed.
Lemma write_seq_pairs_nonneg plan s1 s2 tags t rs p d sd m d' c : write_seq_pairs plan s1 s2 tags t rs p d sd m = Some (d', c) -> (0 <= c)%Z.
Proof.
  unfold write_seq_pairs. destruct (ModelWrite.verify_rowsums s1 s2 tags rs); [|discriminate]. cbn [guard].
  destruct (iter_over_enumerate_filtered_couples_psds _ _ _ _) as [ps|]; [|discriminate]. cbn [bind]. intros H.
  apply bind_some in H as ([[fi bu] k] & E & H). injection H as _ <-. cbn in E.
  apply (fold_inv (fun s : Lines * Lines * Z => (0 <= snd s)%Z)) in E; [exact E| |cbn; lia].
  intros [[f b] k'] pr [[f' b'] k''] Hk Ek. cbn [snd] in *. apply bind_some in Ek as (key & _ & Ek).
  destruct key as [x|]; [|injection Ek as _ _ <-; exact Hk]. destruct (_ =? 0)%Z; injection Ek as _ _ <-; lia.
Qed.
Lemma seq_pairs_log ck plan s1 s2 tags t rs p d sd m d' c : clock_ok ck -> write_seq_pairs plan s1 s2 tags t rs p d sd m = Some (d', c) ->
  exists l, write_seq_pairs_log ck plan s1 s2 tags t rs p d sd m = Some (d', c, l) /\ Forall quiet l /\ (0 <= c)%Z.
Proof.
  intros Hc E. assert (K := write_seq_pairs_nonneg _ _ _ _ _ _ _ _ _ _ _ _ E). unfold write_seq_pairs_log. rewrite E. cbn [bind].
  eexists. split; [reflexivity|]. split; auto. constructor; [now apply quiet_generated|].
  destruct Hc as (_ & _ & _ & _ & _ & _ & _ & _ & _ & _ & W). apply Forall_app. split; apply quiet_warning; auto; intros s Hs; apply (W rs tags); auto.
Qed.
Lemma rowsum_log ck plan folder rs p m pr f f' c : clock_ok ck -> write_pairs_rowsum plan folder rs p m pr f = Some (f', c) ->
  exists l, write_pairs_rowsum_log ck plan folder rs p m pr f = Some (f', c, l) /\ Forall quiet l /\ (0 <= c)%Z.
Proof.
  intros Hc E. unfold write_pairs_rowsum in E. unfold write_pairs_rowsum_log.
  apply bind_some in E as (t & E1 & E). rewrite E1. cbn [bind].
  apply bind_some in E as (s0 & E2 & E). rewrite E2. cbn [bind].
  apply bind_some in E as (s1 & E3 & E). rewrite E3. cbn [bind].
  apply bind_some in E as (s2 & E4 & E). rewrite E4. cbn [bind].
  apply bind_some in E as (s3 & E5 & E). rewrite E5. cbn [bind].
  apply bind_some in E as (d0 & E6 & E). rewrite E6. cbn [bind].
  apply bind_some in E as (d1 & E7 & E). rewrite E7. cbn [bind].
  apply bind_some in E as (d2 & E8 & E). rewrite E8. cbn [bind].
  apply bind_some in E as (d3 & E9 & E). rewrite E9. cbn [bind].
  apply bind_some in E as ([d4 k] & E10 & E). injection E as <- <-.
  assert (Q : Forall quiet [found s0 (rowsum_of_tag rs TW); found s1 (rowsum_of_tag rs TX); found s2 (rowsum_of_tag rs TY); found s3 (rowsum_of_tag rs TZ);
            lit "Generating all sequences with rowsums " ++ quad_debug rs ++ lit " took " ++ seconds (tm_seqs ck rs) ++ lit " seconds"]).
  { do 4 (constructor; [apply quiet_found|]). constructor; [|constructor]. destruct Hc as (H & _). specialize (H rs).
    destruct rs as [[[a b] e] g]. unfold quad_debug. quiet_tac. }
  assert (Z : quiet (lit "Generating .pair files for both pairs took " ++ seconds (tm_both ck rs) ++ lit " seconds")).
  { destruct Hc as (_ & H & _). specialize (H rs). quiet_tac. }
  assert (K : exists l, match pr with
    | Some WX =>
        let* (d, c1, l1) := write_seq_pairs_log ck plan s0 s1 (TW, TX) t rs p d3 LEFT m in
        let* (d, c2, l2) := write_seq_pairs_log ck plan s2 s3 (TY, TZ) t rs p d RIGHT m in
        Some (d, (c1 + c2)%Z, l1 ++ l2)
    | Some WY =>
        let* (d, c1, l1) := write_seq_pairs_log ck plan s0 s2 (TW, TY) t rs p d3 LEFT m in
        let* (d, c2, l2) := write_seq_pairs_log ck plan s1 s3 (TX, TZ) t rs p d RIGHT m in
        Some (d, (c1 + c2)%Z, l1 ++ l2)
    | Some WZ | None =>
        let* (d, c1, l1) := write_seq_pairs_log ck plan s0 s3 (TW, TZ) t rs p d3 LEFT m in
        let* (d, c2, l2) := write_seq_pairs_log ck plan s1 s2 (TX, TY) t rs p d RIGHT m in
        Some (d, (c1 + c2)%Z, l1 ++ l2)
    end = Some (d4, k, l) /\ Forall quiet l /\ (0 <= k)%Z).
  { destruct pr as [[| |]|]; apply bind_some in E10 as ([d5 c1] & A1 & E10); apply bind_some in E10 as ([d6 c2] & A2 & E10); injection E10 as -> <-;
      apply (seq_pairs_log ck) in A1 as (l1 & -> & Q1 & N1); auto; cbn [bind]; apply (seq_pairs_log ck) in A2 as (l2 & -> & Q2 & N2); auto; cbn [bind];
      (eexists; split; [reflexivity|]; split; [now apply Forall_app|lia]). }
  destruct K as (l & K & Ql & N).
  exists (([found s0 (rowsum_of_tag rs TW); found s1 (rowsum_of_tag rs TX); found s2 (rowsum_of_tag rs TY); found s3 (rowsum_of_tag rs TZ);
            lit "Generating all sequences with rowsums " ++ quad_debug rs ++ lit " took " ++ seconds (tm_seqs ck rs) ++ lit " seconds"] ++ l) ++
     [lit "Generating .pair files for both pairs took " ++ seconds (tm_both ck rs) ++ lit " seconds"; []]).
  split; [|split; [|exact N]].
  - destruct pr as [[| |]|]; apply bind_some in K as ([[d5 c1] l1] & A1 & K); rewrite A1; cbn [bind]; apply bind_some in K as ([[d6 c2] l2] & A2 & K); rewrite A2; cbn [bind];
      injection K as -> -> <-; reflexivity.
  - apply Forall_app. split; [apply Forall_app; split; [exact Q|exact Ql]|]. constructor; [exact Z|]. constructor; [apply quiet_nil|constructor].
Qed.
Lemma number_end pre post z : (0 <= z)%Z -> match post with c :: _ => is_digit c = false | [] => False end ->
  search (number_pattern pre post) (pre ++ usize_to_string z ++ post) = Some z.
Proof. intros H1 H2. rewrite <- (number_line pre post z [] H1 H2). now rewrite app_nil_r. Qed.
Lemma runtime_end a z : (0 <= z)%Z -> ~ In ":"%char a -> search runtime_pattern (a ++ lit ": " ++ seconds z ++ lit " seconds") = Some (seconds z).
Proof. intros H1 H2. rewrite <- (runtime_line a z [] H1 H2). now rewrite app_nil_r. Qed.
Lemma took_end pre z : (0 <= z)%Z -> search (took_pattern pre) (pre ++ seconds z ++ lit " seconds") = Some (seconds z).
Proof. intros H1. rewrite <- (took_line pre z [] H1). now rewrite app_nil_r. Qed.
Ltac line_tac := unfold reading; cbn [first_match runtimes flat_map app].
Lemma reading_total c : (0 <= c)%Z -> reading [lit "Generated " ++ usize_to_string c ++ lit " total pairs"] = mkReading None None (Some c) [] None None.
Proof.
  intros H. line_tac. unfold m_pairs. rewrite number_end by (auto; reflexivity).
  unfold m_wts, m_qts, m_red, m_hm. rewrite !number_none, !took_none, runtime_none by (unfold p_red, p_hm; first [left; hush_tac; fail | hush_tac]). reflexivity.
Qed.
Lemma reading_pairs_time z : (0 <= z)%Z -> reading [lit "Total time to generate .pair files: " ++ seconds z ++ lit " seconds"] = mkReading None None None [seconds z] None None.
Proof.
  intros H. line_tac. change (lit "Total time to generate .pair files: " ++ seconds z ++ lit " seconds") with (lit "Total time to generate .pair files" ++ lit ": " ++ seconds z ++ lit " seconds").
  rewrite runtime_end by (auto; vm_compute; intuition discriminate).
  unfold m_wts, m_qts, m_red, m_hm, m_pairs. rewrite !number_none, !took_none by (unfold p_red, p_hm; hush_tac). reflexivity.
Qed.
Lemma pairs_log ck fuel p t m pr f f' c : clock_ok ck -> write_pairs fuel p t m pr f = Some (f', c) ->
  exists l, write_pairs_log ck fuel p t m pr f = Some (f', c, l) /\ (0 <= c)%Z /\
    reading l = mkReading None None (Some c) [seconds (tm_pairs ck)] None None.
Proof.
  intros Hc E. unfold write_pairs in E. apply bind_some in E as (rss & E1 & E). unfold write_pairs_log. rewrite E1. cbn [bind].
  set (l0 := (lit "Generating rowsum decompositions for length " ++ count p ++ lit " ...") :: map quad_debug rss ++ [lit "Generated " ++ count (length rss) ++ lit " different rowsums"; []]).
  assert (Q0 : Forall quiet l0).
  { constructor; [quiet_tac|]. apply Forall_app. split; [|constructor; [quiet_tac|constructor; [apply quiet_nil|constructor]]].
    apply Forall_forall. intros s Hs. apply in_map_iff in Hs as (q & <- & _). apply quiet_quad. }
  clearbody l0.
  assert (K : forall rss f k l0, (0 <= k)%Z -> Forall quiet l0 ->
    fold_m (fun '(f, counter) rs => let* (f, c) := write_pairs_rowsum p (seqtype_to_string t) rs p m pr f in Some (f, (counter + c)%Z)) rss (f, k) = Some (f', c) ->
    exists l, fold_m (fun '(f, counter, l) rs =>
            let* (f, c, lr) := write_pairs_rowsum_log ck p (seqtype_to_string t) rs p m pr f in
            Some (f, (counter + c)%Z, l ++ (lit "Generating .pair files for rowsums " ++ quad_debug rs ++ lit " ...") :: lr)) rss (f, k, l0) = Some (f', c, l) /\
      Forall quiet l /\ (0 <= c)%Z).
  { clear -Hc. induction rss as [|rs rss IH]; intros f k l0 Hk Q0 E; cbn [fold_m] in E |- *.
    - injection E as -> ->. eauto.
    - apply bind_some in E as ([f1 k1] & E1 & E). apply bind_some in E1 as ([f2 k2] & E2 & E1). injection E1 as <- <-.
      apply (rowsum_log ck) in E2 as (lr & -> & Ql & N); auto. cbn [bind].
      destruct (IH f2 (k + k2)%Z (l0 ++ (lit "Generating .pair files for rowsums " ++ quad_debug rs ++ lit " ...") :: lr)) as (l & El & R); [lia| |exact E|eauto].
      apply Forall_app. split; auto. constructor; auto. destruct rs as [[[a b] e] g]. unfold quad_debug. quiet_tac. }
  destruct (K rss f 0%Z l0 ltac:(lia) Q0 E) as (l & El & Ql & N).
  match goal with |- context [bind ?X _] => replace X with (Some (f', c, l)) by (symmetry; exact El) end. cbn [bind]. eexists. split; [reflexivity|]. split; auto.
  rewrite reading_app, (reading_quiet l Ql), then_nothing.
  assert (T : (0 <= tm_pairs ck)%Z) by apply Hc.
  change (_ :: _ :: [] :: []) with ([lit "Generated " ++ usize_to_string c ++ lit " total pairs"] ++ [lit "Total time to generate .pair files: " ++ seconds (tm_pairs ck) ++ lit " seconds"] ++ [[]]).
  rewrite !reading_app, reading_total, reading_pairs_time by auto. rewrite (reading_quiet [[]]) by (constructor; [apply quiet_nil|constructor]). reflexivity.
Qed.

(* ---- sortpairs.sh ---- *)

Lemma rowsum_dir_plain rs : exists k, rowsum_dir rs = lit "rowsum_" ++ k /\ plain k.
Proof.
  destruct rs as [[[a b] c] d]. unfold rowsum_dir. eexists. split; [reflexivity|].
  repeat (apply plain_app; [first [apply isize_plain | split; [discriminate|repeat constructor; vm_compute; tauto]]|]). apply isize_plain.
Qed.
