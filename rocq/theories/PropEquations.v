(* Property theorems C51: the equation generator. *)
From Coq Require Import Ascii String List ZArith Lia Arith Bool.
From Verif Require Import Base Sums ModelSequence ModelWilliamson ModelEquivalence ModelRowsum ModelEquations SpecRowsum
  Spec SpecEquations SystemFacts.
Import ListNotations.
Notation length := List.length.
Open Scope nat_scope.

(* C51.  The system that is read back from the text consists of four parts: the linear
   cross-correlation equations C, the n-1 quadratic ones N, the two row sum equations R and the n-1
   autocorrelation equations A.  The linear parts hold exactly for the intended sequences. *)
Theorem C51_linear_equations : forall n s1 s2 t1 t2 u1 u2 rs, 1 <= n -> length s1 = n -> length s2 = n -> pm1 s1 -> pm1 s2 ->
  missing t1 t2 = Some (u1, u2) ->
  exists txt C N R A, generate_equations s1 t1 s2 t2 QuaternionType rs = Some txt /\
    read_opb txt = Some (C ++ N ++ R ++ A) /\ length N = n - 1 /\ length R = 2 /\ length A = n - 1 /\
    forall q v, pm_quad n q -> sequence q t1 = s1 -> sequence q t2 = s2 ->
      encodes n (sequence q u1) (sequence q u2) v ->
      (Forall (holds v) C <-> forall t, mixed_identities t1 t2 q t) /\
      (Forall (holds v) R <-> total (sequence q u1) = of_tag rs u1 /\ total (sequence q u2) = of_tag rs u2).
Proof. exact system_linear. Qed.
Print Assumptions C51_linear_equations.
(* 0/1 assignments and pairs of sequences correspond to each other *)
Theorem C51_encode : forall n y z x0, length y = n -> length z = n -> pm1 y -> pm1 z -> (x0 = 0 \/ x0 = 1)%Z ->
  exists v, boolean v /\ v 0 = x0 /\ encodes n y z v.
Proof. exact encode_exists. Qed.
Print Assumptions C51_encode.
Theorem C51_decode : forall n v, boolean v ->
  exists y z, length y = n /\ length z = n /\ pm1 y /\ pm1 z /\ encodes n y z v.
Proof. exact decode_exists. Qed.
Print Assumptions C51_decode.
(* for complementary sequences the identities behind the equations are those of quaternion type *)
Theorem C51_right_identities : forall n q, pm_quad n q -> 1 <= n -> complementary q ->
  (quaternion_identities q <-> forall t, identity_WX q t /\ identity_WY q t /\ identity_WZ q t).
Proof. exact right_identities. Qed.
Print Assumptions C51_right_identities.
(* so no quaternion-type quadruple with the given row sums is lost to the linear equations *)
Theorem C51_linear_complete : forall n q t1 t2 u1 u2 rs v, 1 <= n -> pm_quad n q -> is_QT q -> missing t1 t2 = Some (u1, u2) ->
  total (sequence q u1) = of_tag rs u1 -> total (sequence q u2) = of_tag rs u2 ->
  encodes n (sequence q u1) (sequence q u2) v ->
  exists txt C N R A, generate_equations (sequence q t1) t1 (sequence q t2) t2 QuaternionType rs = Some txt /\
    read_opb txt = Some (C ++ N ++ R ++ A) /\ length N = n - 1 /\ length R = 2 /\ length A = n - 1 /\
    Forall (holds v) C /\ Forall (holds v) R.
Proof. exact solutions_linear. Qed.
Print Assumptions C51_linear_complete.
(* the quadratic equations: what they say, the variable x0 and the right-hand side 0 *)
Theorem C51_quadratic_equations : forall n s1 s2 t1 t2 u1 u2 rs, 2 <= n -> length s1 = n -> length s2 = n -> pm1 s1 -> pm1 s2 ->
  missing t1 t2 = Some (u1, u2) ->
  exists txt C N R A, generate_equations s1 t1 s2 t2 QuaternionType rs = Some txt /\
    read_opb txt = Some (C ++ N ++ R ++ A) /\ length N = n - 1 /\ length R = 2 /\ length A = n - 1 /\
    (forall e, In e (N ++ A) -> mentions e 0) /\ (forall e, In e N -> eq_rhs e = 0%Z) /\
    (forall o, 1 <= o < n -> exists e, nth_error A (o - 1) = Some e /\
       forall v, holds v e <->
         sumZ n (fun i => let j := ((S i + o) mod n)%nat in
           (sign_of v (S i) * sign_of v j + sign_of v (S i + n)%nat * sign_of v (j + n)%nat)%Z)
         = (- (paf s1 (Z.of_nat o) + paf s2 (Z.of_nat o)))%Z) /\
    (forall o, 1 <= o < n -> exists e, nth_error N (o - 1) = Some e /\
       forall v, holds v e <->
         sumZ n (fun i => let j := ((S i + o) mod n)%nat in
           (sign_of v (S i) * sign_of v (j + n)%nat - sign_of v (S i + n)%nat * sign_of v j)%Z) = 0%Z).
Proof. exact system_quadratic. Qed.
Print Assumptions C51_quadratic_equations.
(* the quadratic equations lose a quadruple of quaternion type, whatever x0 is *)
Theorem C51_complete_refuted : exists n q t1 t2 u1 u2 rs, pm_quad n q /\ is_QT q /\ missing t1 t2 = Some (u1, u2) /\
  (forall t, total (sequence q t) = of_tag rs t) /\
  forall txt es v, generate_equations (sequence q t1) t1 (sequence q t2) t2 QuaternionType rs = Some txt ->
    read_opb txt = Some es -> boolean v -> encodes n (sequence q u1) (sequence q u2) v -> ~ Forall (holds v) es.
Proof.
  exists 3, lost, TW, TX, TZ, TY, (-1, -1, -3, 1)%Z. split; [apply lost_QT|]. split; [apply lost_QT|].
  split; [reflexivity|]. split; [now intros []|exact lost_system].
Qed.
Print Assumptions C51_complete_refuted.
(* other sequence types and other pairs of tags panic *)
Theorem C51_panics : forall s1 t1 s2 t2 ty rs, ty <> QuaternionType \/ missing t1 t2 = None ->
  generate_equations s1 t1 s2 t2 ty rs = None.
Proof. exact generate_panics. Qed.
Print Assumptions C51_panics.
Example C51_instance :
  pm_quad 3 lost /\ is_QT lost /\ complementary lost /\
  missing TX TZ = Some (TW, TY) /\ sequence lost TX = [-1; 1; -1]%Z /\ sequence lost TZ = [1; -1; 1]%Z /\
  total (sequence lost TW) = of_tag (-1, -1, -3, 1)%Z TW /\ total (sequence lost TY) = of_tag (-1, -1, -3, 1)%Z TY /\
  (exists v, boolean v /\ encodes 3 (sequence lost TW) (sequence lost TY) v) /\
  (exists txt es, generate_equations (sequence lost TX) TX (sequence lost TZ) TZ QuaternionType (-1, -1, -3, 1)%Z = Some txt /\
     read_opb txt = Some es /\ length es = 10) /\
  generate_equations [1; 1]%Z TX [1; -1]%Z TW QuaternionType (2, 0, 0, 2)%Z = None.
Proof.
  destruct lost_QT as [P Q]. split; [exact P|]. split; [exact Q|]. split; [apply Q|]. repeat (split; [reflexivity|]).
  split.
  - destruct (C51_encode 3 (sequence lost TW) (sequence lost TY) 1%Z) as (v & H & _ & E); try reflexivity; try apply P.
    + now right.
    + exists v. auto.
  - split; [|reflexivity]. destruct (generate_equations _ _ _ _ _ _) as [txt|] eqn:E; [|vm_compute in E; discriminate].
    exists txt. destruct (read_opb txt) as [es|] eqn:F.
    + exists es. split; [reflexivity|]. split; [reflexivity|].
      assert (G : (let* t := generate_equations (sequence lost TX) TX (sequence lost TZ) TZ QuaternionType (-1, -1, -3, 1)%Z in
                  read_opb t) = Some es) by (rewrite E; exact F).
      vm_compute in G. injection G as <-. reflexivity.
    + assert (G : (let* t := generate_equations (sequence lost TX) TX (sequence lost TZ) TZ QuaternionType (-1, -1, -3, 1)%Z in
                  read_opb t) = None) by (rewrite E; exact F).
      vm_compute in G. discriminate.
Qed.
