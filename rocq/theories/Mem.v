(** Heap arrays whose cells may be uninitialised (as after malloc).  Reading an
    uninitialised cell, or any access outside the array, is undefined behaviour
    ([None]).  Target language of the models, like Base.v. *)
From Coq Require Import ZArith List Lia Bool.
From Verif Require Import Base.
Import ListNotations.
Open Scope Z_scope.

Definition mem (A : Type) := list (option A).

(** [m[i]] as a value. *)
Definition ld {A} (m : mem A) (i : Z) : option A :=
  match getz m i with Some (Some v) => Some v | _ => None end.

(** [m[i] = v]. *)
Definition st {A} (m : mem A) (i : Z) (v : A) : option (mem A) := setz m i (Some v).

(** malloc of [n] cells. *)
Definition alloc {A} (n : Z) : mem A := arr n None.

(** memcpy of [n] cells between two different arrays (cells are copied as they
    are, initialised or not). *)
Definition mcpy {A} (dst : mem A) (doff : Z) (src : mem A) (soff n : Z) : option (mem A) :=
  zfor 0 n (fun k d => c <- getz src (soff + k); setz d (doff + k) c) dst.

(** An array holding exactly the values of [l]. *)
Definition full {A} (l : list A) : mem A := map Some l.

Arguments ld : simpl never.
Arguments st : simpl never.
Arguments alloc : simpl never.
Arguments mcpy : simpl never.

Lemma ld_range {A} (m : mem A) i v : ld m i = Some v -> 0 <= i < zlen m.
Proof. unfold ld. destruct (getz m i) eqn:E; [|discriminate]. intros _. eapply getz_range; eauto. Qed.

Lemma ld_getz {A} (m : mem A) i v : ld m i = Some v <-> getz m i = Some (Some v).
Proof. unfold ld. destruct (getz m i) as [[]|]; split; congruence. Qed.

Lemma st_Some {A} (m : mem A) i v : 0 <= i < zlen m -> exists m', st m i v = Some m'.
Proof. apply setz_Some. Qed.

Lemma st_zlen {A} (m m' : mem A) i v : st m i v = Some m' -> zlen m' = zlen m.
Proof. apply setz_zlen. Qed.

Lemma getz_st {A} (m m' : mem A) i v j :
  st m i v = Some m' -> getz m' j = if Z.eqb i j then Some (Some v) else getz m j.
Proof. apply getz_setz. Qed.

Lemma ld_st {A} (m m' : mem A) i v j :
  st m i v = Some m' -> ld m' j = if Z.eqb i j then Some v else ld m j.
Proof. intros H. unfold ld. rewrite (getz_st _ _ _ _ _ H). now destruct (Z.eqb_spec i j). Qed.

Lemma st_range {A} (m m' : mem A) i v : st m i v = Some m' -> 0 <= i < zlen m.
Proof. apply setz_range. Qed.

Lemma zlen_alloc {A} n : 0 <= n -> zlen (@alloc A n) = n.
Proof. apply zlen_arr. Qed.

Lemma zlen_full {A} (l : list A) : zlen (full l) = zlen l.
Proof. apply zlen_map. Qed.

Lemma getz_full {A} (l : list A) i : getz (full l) i = option_map Some (getz l i).
Proof. apply getz_map. Qed.

Lemma ld_full {A} (l : list A) i : ld (full l) i = getz l i.
Proof. unfold ld. rewrite getz_full. now destruct (getz l i). Qed.

Lemma mcpy_spec {A} (dst : mem A) doff (src : mem A) soff n :
  0 <= n -> 0 <= doff -> doff + n <= zlen dst -> 0 <= soff -> soff + n <= zlen src ->
  exists dst', mcpy dst doff src soff n = Some dst' /\ zlen dst' = zlen dst /\
    forall k, getz dst' k = if (doff <=? k) && (k <? doff + n) then getz src (soff + (k - doff)) else getz dst k.
Proof.
  intros Hn Hd1 Hd2 Hs1 Hs2. unfold mcpy.
  pose (P := fun (i : Z) (d : mem A) => zlen d = zlen dst /\
    forall k, getz d k = if (doff <=? k) && (k <? doff + i) then getz src (soff + (k - doff)) else getz dst k).
  match goal with |- context [zfor 0 n ?b dst] => destruct (zfor_inv P 0 n b dst) as [d [E [P1 P2]]] end; auto.
  - split; auto. intros k. destruct (Z.leb_spec doff k); destruct (Z.ltb_spec k (doff + 0)); simpl; auto; lia.
  - intros i d Hi [P1 P2]. destruct (getz_in src (soff + i)) as [c Hc]; [lia|]. rewrite Hc. cbn [bind].
    destruct (setz_Some d (doff + i) c ltac:(lia)) as [d' E]. exists d'. split; auto. split.
    + rewrite (setz_zlen _ _ _ _ E); auto.
    + intros k. rewrite (getz_setz _ _ _ _ _ E), P2. destruct (Z.eqb_spec (doff + i) k).
      * subst k. destruct (Z.leb_spec doff (doff + i)); [|lia]. destruct (Z.ltb_spec (doff + i) (doff + (i + 1))); [|lia].
        simpl. rewrite <- Hc. f_equal. lia.
      * destruct (Z.leb_spec doff k); destruct (Z.ltb_spec k (doff + i)); destruct (Z.ltb_spec k (doff + (i + 1))); simpl; auto; lia.
  - exists d. auto.
Qed.
