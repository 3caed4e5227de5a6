(** Detections of the YOLO examples (examples/tiny-yolo-v3-coco/detections.go, utils.go;
    nonMaxSupr, IOUFloat32 and Rectify of tiny-yolo-v2-coco/detection_layer.go:116-139 and
    math_ops.go:10-37 are the same). Floats are exact rationals. Proof-free. *)
From Coq Require Import List ZArith QArith Bool Arith String.
From Verif Require Import BroadcastModel ShapeGradModel YoloModel.
Import ListNotations.
Local Open Scope nat_scope.

(** DetectionRectangle (detections.go:12-17). *)
Record det := Det { conf : Q; drect : rect; class : string; score : Q }.

(** Rectify (utils.go:143-145) with MaxInt and MinInt (148-161); Go divides towards zero. *)
Definition rectify (x y w h maxw maxh : Z) : rect :=
  mkRect (Z.max (x - Z.quot w 2) 0) (Z.max (y - Z.quot h 2) 0)
         (Z.min (x + Z.quot w 2 + 1) maxw) (Z.min (y + Z.quot h 2 + 1) maxh).

(** The comparison [a > b] of floats (detections.go:104, 110). *)
Definition gtQ (a b : Q) : bool := negb (Qle_bool a b).
(** The loop over the classes (detections.go:101-108): the class and its probability. *)
Fixpoint bestClass (data : list Q) (i j n : nat) (cls : nat) (best : Q) : res (nat * Q) :=
  match n with
  | 0 => Ok (cls, best)
  | S n' =>
      match nth_error data (i + 5 + j) with
      | None => Panic
      | Some p => if gtQ p best then bestClass data i (S j) n' j p else bestClass data i (S j) n' cls best
      end
  end.
(** One round of the loop of prepareDetections (detections.go:100-117). *)
Definition detectAt (data : list Q) (thr : Q) (netSize : Z) (classes : list string) (i : nat) : res (list det) :=
  bind (bestClass data i 0 (List.length classes) 0 0%Q) (fun '(c, p) =>
    match nth_error data (i + 4) with
    | None => Panic
    | Some cf =>
        if gtQ (p * cf) thr then
          match nth_error data i, nth_error data (i + 1), nth_error data (i + 2), nth_error data (i + 3), nth_error classes c with
          | Some x, Some y, Some w, Some h, Some name =>
              Ok [Det cf (rectify (trunc x) (trunc y) (trunc w) (trunc h) netSize netSize) name p]
          | _, _, _, _, _ => Panic
          end
        else Ok []
    end).
(** prepareDetections (detections.go:97-119); [fuel] is enough when it is len(data). *)
Fixpoint prepareFrom (fuel : nat) (data : list Q) (thr : Q) (netSize : Z) (classes : list string) (i : nat) : res (list det) :=
  match fuel with
  | 0 => Ok []
  | S fuel' =>
      if i <? List.length data then
        bind (detectAt data thr netSize classes i) (fun d =>
        bind (prepareFrom fuel' data thr netSize classes (i + (List.length classes + 5))) (fun ds => Ok (d ++ ds)))
      else Ok []
  end.
(** detections.go:97-119. *)
Definition prepareDetections (data : list Q) (thr : Q) (netSize : Z) (classes : list string) : res (list det) :=
  prepareFrom (List.length data) data thr netSize classes 0.

(** [currIOU > iouTreshold && class == class] (detections.go:134); false for a NaN. *)
Definition hides (thr : Q) (d k : det) : bool :=
  match iou (drect d) (drect k) with Some q => gtQ q thr | None => false end && String.eqb (class d) (class k).
(** The loop of nonMaxSupr (detections.go:128-141). *)
Fixpoint nmsLoop (thr : Q) (ds nms : list det) : list det :=
  match ds with
  | [] => nms
  | d :: ds' => if existsb (hides thr d) nms then nmsLoop thr ds' nms else nmsLoop thr ds' (nms ++ [d])
  end.

Section Sorted.
(** sort.Sort of the Go library with the Less of Detections (detections.go:36). *)
Variable sortConf : list det -> list det.
(** sort.Sort with the Less of DetectionsOrder (detections.go:45-47). *)
Variable sortX : list det -> list det.
(** nonMaxSupr (detections.go:122-143). *)
Definition nonMaxSupr (ds : list det) (thr : Q) : list det := nmsLoop thr (sortConf ds) [].
(** The loop of ProcessOutput over the outputs (detections.go:58-90). *)
Fixpoint collect (outs : list (list Q)) (scoreThr : Q) (netSize : Z) (classes : list string) : res (list det) :=
  match outs with
  | [] => Ok []
  | o :: outs' => bind (prepareDetections o scoreThr netSize classes) (fun a =>
                  bind (collect outs' scoreThr netSize classes) (fun b => Ok (a ++ b)))
  end.
(** ProcessOutput (detections.go:51-95) for outputs that are tensors of floats. *)
Definition processOutput (classesNum : nat) (outs : list (list Q)) (netSize : Z) (classes : list string) (scoreThr iouThr : Q) : res (list det) :=
  if negb (Nat.eqb (List.length classes) classesNum) then Err
  else bind (collect outs scoreThr netSize classes) (fun ds => Ok (sortX (nonMaxSupr ds iouThr))).
End Sorted.
