-Q theories Verif
theories/Base.v
theories/PQ_Model.v
theories/PQ_Spec.v
theories/PQ_Proofs.v
theories/PQ_Props.v
theories/Fn_Model.v
theories/Fn_Spec.v
theories/Fn_Proofs.v
theories/Fn_Props.v
theories/Iter_Model.v
theories/Iter_Spec.v
theories/Iter_Proofs.v
theories/Iter_Props.v
theories/Slice_Model.v
theories/Slice_Spec.v
theories/Slice_Proofs.v
theories/Slice_Proofs2.v
theories/Slice_Props.v
theories/Split_Model.v
theories/Split_Proofs.v
theories/Split_Props.v
theories/Stream_Model.v
theories/Stream_Spec.v
theories/Stream_Proofs.v
theories/Stream_Proofs2.v
theories/Stream_Proofs3.v
theories/Stream_Props.v
theories/StreamPar_Model.v
theories/StreamPar_Spec.v
theories/StreamPar_Proofs.v
theories/StreamPar_Proofs2.v
theories/StreamPar_Proofs3.v
theories/StreamPar_Props.v
theories/StreamTry_Model.v
theories/StreamTry_Spec.v
theories/StreamTry_Proofs.v
theories/StreamTry_Proofs2.v
theories/StreamTry_Props.v
theories/Lin_Spec.v
theories/Lin_Proofs.v
theories/Queue_Model.v
theories/Queue_Spec.v
theories/Queue_Proofs.v
theories/Queue_Proofs2.v
theories/Queue_Proofs3.v
theories/Queue_Props.v
theories/WalkSplit_Model.v
theories/WalkSplit_Spec.v
theories/WalkSplit_Proofs.v
theories/LinkedList_Model.v
theories/LinkedList_Spec.v
theories/LinkedList_Proofs.v
theories/LinkedList_Proofs2.v
theories/LinkedList_Proofs3.v
theories/LinkedList_Proofs4.v
theories/LinkedList_Props.v
theories/LinkedHandles_Props.v
theories/DelayQueue_Model.v
theories/DelayQueue_Spec.v
theories/DelayQueue_Proofs.v
theories/DelayQueue_Proofs2.v
theories/DelayQueue_Proofs3.v
theories/DelayQueue_Proofs4.v
theories/DelayQueue_Props.v
theories/Race_Spec.v
theories/QueueRace_Model.v
theories/QueueRace_Props.v
theories/DQRace_Model.v
theories/DQRace_Props.v
theories/LFRace_Model.v
theories/LFRace_Props.v
theories/RBTree_Model.v
theories/RBTree_Spec.v
theories/RBTree_Proofs.v
theories/RBTree_Proofs2.v
theories/RBTree_Proofs3.v
theories/RBTree_Proofs4.v
theories/RBTree_Proofs5.v
theories/RBTree_Proofs6.v
theories/RBTree_Proofs7.v
theories/RBTree_Proofs8.v
theories/RBTree_Proofs9.v
theories/RBTree_Proofs10.v
theories/RBTree_Proofs11.v
theories/RBTree_Props.v
theories/RBTreeKV_Proofs.v
theories/RBTreeKV_Proofs2.v
theories/RBTreeKV_Props.v
theories/RBHandles_Props.v
theories/SkipList_Model.v
theories/SkipList_Spec.v
theories/SkipList_Proofs.v
theories/SkipList_Proofs2.v
theories/SkipList_Proofs3.v
theories/SkipList_Proofs4.v
theories/SkipList_Proofs5.v
theories/SkipList_Proofs6.v
theories/SkipList_Props.v
theories/SkipHandles_Props.v
theories/Show_Model.v
theories/Show_Props.v
theories/BPlus_Model.v
theories/BPlus_Spec.v
theories/BPlus_Proofs.v
theories/BPlus_Proofs2.v
theories/BPlus_Proofs3.v
theories/BPlus_Proofs4.v
theories/BPlus_Proofs5.v
theories/BPlus_Proofs6.v
theories/BPlus_Proofs7.v
theories/BPlus_Proofs8.v
theories/BPlus_Proofs9.v
theories/BPlus_Proofs10.v
theories/BPlus_Proofs11.v
theories/BPlus_Proofs12.v
theories/BPlus_Proofs13.v
theories/BPlus_Proofs14.v
theories/BPlus_Proofs15.v
theories/BPlus_Props.v
theories/BPlusPrint_Model.v
theories/BPlusPrint_Spec.v
theories/BPlusPrint_Proofs.v
theories/BPlusPrint_Props.v
theories/Hash_Model.v
theories/Hash_Spec.v
theories/Hash_Proofs.v
theories/Hash_Proofs2.v
theories/Hash_Proofs3.v
theories/Hash_Proofs4.v
theories/Hash_Props.v
theories/Lin_Hindsight.v
theories/LockFree_Model.v
theories/LockFree_Spec.v
theories/LockFree_Proofs.v
theories/LockFree_Proofs2.v
theories/LockFree_Proofs3.v
theories/LockFree_Proofs4.v
theories/LockFree_Proofs5.v
theories/LockFree_Proofs6.v
theories/LockFree_Proofs7.v
theories/LockFree_Proofs8.v
theories/LockFree_Proofs9.v
theories/LockFree_Proofs10.v
theories/LockFree_Proofs11.v
theories/LockFree_Proofs12.v
theories/LockFree_Proofs13.v
theories/LockFree_Proofs14.v
theories/LockFree_Proofs15.v
theories/LockFree_Props.v
theories/Chan_Model.v
theories/Chan_Props.v
theories/StreamRed_Model.v
theories/StreamRed_Spec.v
theories/StreamRed_Proofs.v
theories/StreamRed_Props.v
theories/ParPipe_Model.v
theories/ParPipe_Spec.v
theories/ParPipe_Proofs.v
theories/ParPipe_Proofs2.v
theories/ParPipe_Proofs3.v
theories/ParPipe_Proofs4.v
theories/ParPipe_Props.v
theories/ParListPipe_Props.v
theories/ParSkipPipe_Props.v
theories/ParTreePipe_Props.v
theories/TryPipe_Model.v
theories/TryPipe_Proofs.v
theories/TryPipe_Proofs2.v
theories/TryPipe_Props.v
theories/Cost_Model.v
theories/Cost_Proofs.v
theories/RBCost_Proofs.v
theories/BPlusCost_Proofs.v
theories/BPlusCost_Proofs2.v
theories/Cost_Props.v
theories/BPlusCost_Props.v
theories/PanicPar_Model.v
theories/PanicPar_Spec.v
theories/PanicPar_Proofs.v
theories/PanicPar_Proofs2.v
theories/PanicPar_Proofs3.v
theories/PanicPar_Props.v
theories/PanicTry_Model.v
theories/PanicTry_Spec.v
theories/PanicTry_Proofs.v
theories/PanicTry_Props.v
theories/Keep_Spec.v
theories/Keep_Proofs.v
theories/Keep_Proofs2.v
theories/Keep_Proofs3.v
theories/Keep_Proofs4.v
theories/Keep_Proofs5.v
theories/Keep_Proofs6.v
theories/Keep_Props.v
theories/PanicComp_Model.v
theories/PanicCompSL_Model.v
theories/PanicCompRB_Model.v
theories/PanicComp_Spec.v
theories/PanicComp_Proofs.v
theories/PanicCompRB_Proofs.v
theories/PanicCompSL_Spec.v
theories/PanicCompSL_Proofs.v
theories/PanicCompSL_Proofs2.v
theories/PanicCompRB_Spec.v
theories/PanicCompRB_Proofs2.v
theories/PanicComp_Props.v
theories/PanicCompSL_Props.v
theories/PanicCompRB_Props.v
theories/PanicCompBP_Model.v
theories/PanicCompBP_Proofs.v
theories/PanicCompBP_Spec.v
theories/PanicCompBP_Proofs2.v
theories/PanicCompBP_Proofs3.v
theories/PanicCompBP_Proofs4.v
theories/PanicCompBP_Proofs5.v
theories/PanicCompBP_Proofs6.v
theories/PanicCompBP_Proofs7.v
theories/PanicCompBP_Proofs8.v
theories/PanicCompBP_Props.v
theories/RBWalk_Spec.v
theories/RBWalk_Proofs.v
theories/RBWalk_Props.v
theories/DQPanic_Model.v
theories/DQPanic_Spec.v
theories/DQPanic_Proofs.v
theories/DQPanic_Props.v
theories/LFPanic_Model.v
theories/LFPanic_Spec.v
theories/LFPanic_Proofs.v
theories/LFPanic_Proofs2.v
theories/LFPanic_Props.v
theories/Busy_Model.v
theories/Busy_Spec.v
theories/Busy_Proofs.v
theories/Busy_Proofs2.v
theories/Busy_Proofs3.v
theories/Busy_Proofs4.v
theories/Busy_Props.v
theories/BusyMatch_Spec.v
theories/BusyMatch_Proofs.v
theories/BusyMatch_Props.v
theories/SLCost_Proofs.v
theories/SLCost_Props.v
theories/LFGap_Proofs.v
theories/LFGap_Props.v
theories/Nil_Spec.v
theories/Nil_Proofs.v
theories/Nil_Proofs2.v
theories/Nil_Proofs3.v
theories/Nil_Proofs4.v
theories/Nil_Model.v
theories/Nil_Props.v
theories/NilDQ_Model.v
theories/NilDQ_Spec.v
theories/NilDQ_Props.v
theories/NilLF_Model.v
theories/NilLF_Spec.v
theories/NilLF_Proofs.v
theories/NilLF_Props.v
theories/BusyPanic_Model.v
theories/BusyPanic_Spec.v
theories/BusyPanic_Proofs.v
theories/BusyPanic_Proofs2.v
theories/BusyPanic_Props.v
theories/LFKeep_Spec.v
theories/LFKeep_Proofs.v
theories/LFKeep_Props.v
