-Q theories Verif
theories/Apc_Model.v
theories/Apc_Proof.v
theories/Apc_Props.v
theories/Apc_Spec.v
theories/ArrExpr_Model.v
theories/ArrExpr_Proof.v
theories/ArrExpr_Props.v
theories/ArrExpr_Spec.v
theories/ArraySet_Model.v
theories/ArraySet_Proof.v
theories/ArraySet_Props.v
theories/ArraySet_Spec.v
theories/AutoArray_Model.v
theories/AutoArray_Proof.v
theories/AutoArray_Props.v
theories/AutoArray_Spec.v
theories/AvlIter_Proof.v
theories/Avl_Model.v
theories/Avl_Proof.v
theories/BTreeRun_Proof.v
theories/BTree_Model.v
theories/BTree_Proof.v
theories/BTree_Props.v
theories/BTree_Spec.v
theories/Base16_Model.v
theories/Base16_Proof.v
theories/Base16_Props.v
theories/Base32_Model.v
theories/Base32_Proof.v
theories/Base32_Props.v
theories/Base64_Model.v
theories/Base64_Proof.v
theories/Base64_Props.v
theories/Base85_Model.v
theories/Base85_Proof.v
theories/Base85_Props.v
theories/Base85_Spec.v
theories/BinJson_Model.v
theories/BinJson_Proof.v
theories/BinJson_Props.v
theories/BinJson_Spec.v
theories/BinSer_Model.v
theories/BinSer_Proof.v
theories/BinSer_Props.v
theories/BinSer_Spec.v
theories/Cells_Model.v
theories/Cells_Proof.v
theories/Cells_Props.v
theories/Cells_Spec.v
theories/ClusterAll_Proof.v
theories/ClusterAlloc_Model.v
theories/ClusterAlloc_Proof.v
theories/ClusterAlloc_Props.v
theories/ClusterAlloc_Spec.v
theories/ClusterInv_Proof.v
theories/ClusterRun_Proof.v
theories/CmdLine_Model.v
theories/CmdLine_Proof.v
theories/CmdLine_Props.v
theories/CmdLine_Spec.v
theories/Common.v
theories/CompressNumb_Model.v
theories/CompressNumb_Proof.v
theories/CompressNumb_Props.v
theories/Config_Model.v
theories/Config_Proof.v
theories/Config_Props.v
theories/Config_Spec.v
theories/Conv_Model.v
theories/Conv_Proof.v
theories/Crc32_Model.v
theories/Crc32_Proof.v
theories/Crc32_Props.v
theories/Crc32_Spec.v
theories/DList_Model.v
theories/DList_Proof.v
theories/DList_Props.v
theories/DList_Spec.v
theories/Date_Model.v
theories/Date_Proof.v
theories/Date_Props.v
theories/Date_Spec.v
theories/Deque_Model.v
theories/Deque_Proof.v
theories/Deque_Props.v
theories/Deque_Spec.v
theories/Disp_Model.v
theories/Disp_Proof.v
theories/Disp_Props.v
theories/Disp_Spec.v
theories/Distr_Model.v
theories/Distr_Proof.v
theories/Distr_Props.v
theories/Distr_Spec.v
theories/EpSel_Model.v
theories/EpSel_Proof.v
theories/EpSel_Props.v
theories/EpSel_Spec.v
theories/EvLog_Model.v
theories/EvLog_Proof.v
theories/EvLog_Props.v
theories/EvLog_Spec.v
theories/FastLockR_Model.v
theories/FastLockR_Proof.v
theories/FastLockR_Props.v
theories/FastLock_Model.v
theories/FastLock_Proof.v
theories/FastLock_Props.v
theories/FdSelect_Model.v
theories/FdSelect_Proof.v
theories/FdSelect_Props.v
theories/FdSelect_Spec.v
theories/Fiber_Model.v
theories/Fiber_Proof.v
theories/Fiber_Props.v
theories/Fiber_Spec.v
theories/Gate_Model.v
theories/Gate_Proof.v
theories/Gate_Props.v
theories/Heap_Model.v
theories/Heap_Proof.v
theories/Heap_Props.v
theories/Hook_Model.v
theories/Hook_Proof.v
theories/Hook_Props.v
theories/Hook_Spec.v
theories/Http_Model.v
theories/Http_Proof.v
theories/Http_Props.v
theories/Http_Spec.v
theories/IOBuffer_Model.v
theories/IOBuffer_Proof.v
theories/IOBuffer_Props.v
theories/IOBuffer_Spec.v
theories/IntText_Model.v
theories/IntText_Proof.v
theories/IntText_Props.v
theories/IntText_Spec.v
theories/IterMerge_Proof.v
theories/IterSort_Proof.v
theories/Iter_Model.v
theories/Iter_Proof.v
theories/Iter_Props.v
theories/Iter_Spec.v
theories/Job_Model.v
theories/Job_Proof.v
theories/Job_Props.v
theories/Job_Spec.v
theories/JsonDom_Model.v
theories/JsonDom_Proof.v
theories/JsonDom_Props.v
theories/JsonDom_Spec.v
theories/JsonNorm_Proof.v
theories/JsonSafe_Proof.v
theories/JsonSer_Proof.v
theories/Json_Model.v
theories/Json_Proof.v
theories/Json_Props.v
theories/Json_Spec.v
theories/LevelLock_Model.v
theories/LevelLock_Proof.v
theories/LevelLock_Props.v
theories/LineReader_Model.v
theories/LineReader_Proof.v
theories/LineReader_Props.v
theories/LineReader_Spec.v
theories/LinkedList_Model.v
theories/LinkedList_Proof.v
theories/LinkedList_Props.v
theories/LinkedList_Spec.v
theories/LockPair_Model.v
theories/LockPair_Proof.v
theories/LockPair_Props.v
theories/LockPair_Spec.v
theories/Lzw_Bits.v
theories/Lzw_Model.v
theories/Lzw_Proof.v
theories/Lzw_Props.v
theories/MapRef_Proof.v
theories/Map_Model.v
theories/Map_Proof.v
theories/Map_Props.v
theories/Map_Spec.v
theories/Md5_Model.v
theories/Md5_Proof.v
theories/Md5_Props.v
theories/Md5_Spec.v
theories/MemFile_Model.v
theories/MemFile_Proof.v
theories/MemFile_Props.v
theories/MemFile_Spec.v
theories/MicroLock_Model.v
theories/MicroLock_Proof.v
theories/MicroLock_Props.v
theories/MicroLock_Spec.v
theories/MsgQueueLive_Proof.v
theories/MsgQueue_Model.v
theories/MsgQueue_Proof.v
theories/MsgQueue_Props.v
theories/MsgQueue_Spec.v
theories/MsgThr_Model.v
theories/MsgThr_Proof.v
theories/MsgThr_Props.v
theories/MsgThr_Spec.v
theories/MsgTwice_Model.v
theories/MsgTwice_Proof.v
theories/Mutex_Model.v
theories/Mutex_Proof.v
theories/Mutex_Props.v
theories/NamedEnum_Model.v
theories/NamedEnum_Proof.v
theories/NamedEnum_Props.v
theories/NamedEnum_Spec.v
theories/NetEv_Model.v
theories/NetEv_Proof.v
theories/NetEv_Props.v
theories/NetEv_Spec.v
theories/Notif_Model.v
theories/Notif_Proof.v
theories/Notif_Props.v
theories/Notif_Spec.v
theories/OldSched_Model.v
theories/OldSched_Proof.v
theories/OldSched_Props.v
theories/OldSched_Spec.v
theories/Opt_Model.v
theories/Opt_Proof.v
theories/Opt_Props.v
theories/Opt_Spec.v
theories/ParExecLive_Proof.v
theories/ParExec_Model.v
theories/ParExec_Proof.v
theories/ParExec_Props.v
theories/Path_Model.v
theories/Path_Proof.v
theories/Path_Props.v
theories/Path_Spec.v
theories/PollSel_Model.v
theories/PollSel_Proof.v
theories/PollSel_Props.v
theories/PollSel_Spec.v
theories/PoolAlloc_Model.v
theories/PoolAlloc_Proof.v
theories/PoolAlloc_Props.v
theories/Promise_Model.v
theories/Promise_Proof.v
theories/Promise_Props.v
theories/Query_Model.v
theories/Query_Proof.v
theories/Query_Props.v
theories/Query_Spec.v
theories/QueueExecLive_Proof.v
theories/QueueExec_Model.v
theories/QueueExec_Proof.v
theories/QueueExec_Props.v
theories/QueueExec_Spec.v
theories/RWBuffer_Model.v
theories/RWBuffer_Proof.v
theories/RWBuffer_Props.v
theories/RWBuffer_Spec.v
theories/Random_Model.v
theories/Random_Proof.v
theories/Random_Props.v
theories/Random_Spec.v
theories/Rational_Model.v
theories/Rational_Proof.v
theories/Rational_Props.v
theories/Rational_Spec.v
theories/RefCntRun_Proof.v
theories/RefCntStep_Proof.v
theories/RefCnt_Model.v
theories/RefCnt_Proof.v
theories/RefCnt_Props.v
theories/RefCnt_Spec.v
theories/ResPool_Model.v
theories/ResPool_Proof.v
theories/ResPool_Props.v
theories/ResPool_Spec.v
theories/Rfc4648_Spec.v
theories/SList_Model.v
theories/SList_Proof.v
theories/SList_Props.v
theories/SList_Spec.v
theories/Semaphore_Model.v
theories/Semaphore_Proof.v
theories/Semaphore_Props.v
theories/Sha1_Model.v
theories/Sha1_Proof.v
theories/Sha1_Props.v
theories/Sha1_Spec.v
theories/SharedPtrRun_Proof.v
theories/SharedPtr_Model.v
theories/SharedPtr_Proof.v
theories/SharedPtr_Props.v
theories/SharedRing_Proof.v
theories/SmallAlloc_Model.v
theories/SmallAlloc_Proof.v
theories/SmallAlloc_Props.v
theories/SmallAlloc_Spec.v
theories/SpinLock_Model.v
theories/SpinLock_Props.v
theories/StampParse_Model.v
theories/StampParse_Proof.v
theories/StampParse_Props.v
theories/StampParse_Spec.v
theories/StrPool_Model.v
theories/StrPool_Proof.v
theories/StrPool_Props.v
theories/StrPool_Spec.v
theories/StrToDF_Proof.v
theories/StrToD_Model.v
theories/StrToD_Proof.v
theories/StrToD_Props.v
theories/StrToD_Spec.v
theories/Str_Model.v
theories/Str_Proof.v
theories/Str_Props.v
theories/Str_Spec.v
theories/Svc_Model.v
theories/Svc_Proof.v
theories/Svc_Props.v
theories/Svc_Spec.v
theories/SyncPt_Model.v
theories/SyncPt_Proof.v
theories/SyncPt_Props.v
theories/SyncPt_Spec.v
theories/SysTime_Model.v
theories/SysTime_Proof.v
theories/SysTime_Props.v
theories/SysTime_Spec.v
theories/TcpConn_Model.v
theories/TcpConn_Proof.v
theories/TcpConn_Props.v
theories/TcpConn_Spec.v
theories/TextFormat_Model.v
theories/TextFormat_Proof.v
theories/TextFormat_Props.v
theories/TextFormat_Spec.v
theories/TextParser_Model.v
theories/TextParser_Proof.v
theories/TextParser_Props.v
theories/TextParser_Spec.v
theories/ThrLife_Model.v
theories/ThrLife_Proof.v
theories/ThrLife_Props.v
theories/ThrLife_Spec.v
theories/TimeStamp_Model.v
theories/TimeStamp_Proof.v
theories/TimeStamp_Props.v
theories/TimeStamp_Spec.v
theories/TlsAlloc_Proof.v
theories/Tls_Model.v
theories/Tls_Proof.v
theories/Tls_Props.v
theories/Tls_Spec.v
theories/Url_Spec.v
theories/Utf_Model.v
theories/Utf_Proof.v
theories/Utf_Props.v
theories/Utf_Spec.v
theories/WaitObj_Model.v
theories/WaitObj_Proof.v
theories/WaitObj_Props.v
theories/WaitObj_Spec.v
theories/WeakRef_Model.v
theories/WeakRef_Proof.v
theories/WeakRef_Props.v
theories/WeakRef_Spec.v
theories/XmlEnt_Model.v
theories/XmlEnt_Proof.v
theories/XmlEnt_Props.v
theories/XmlEnt_Spec.v
