-Q theories Verif
theories/AcpModel.v
theories/AcpProps.v
theories/AlockLive.v
theories/AlockModel.v
theories/AlockProofs.v
theories/AlockProps.v
theories/AlruModel.v
theories/AlruProofs.v
theories/AlruProps.v
theories/AsyncLockModel.v
theories/AsyncLockProps.v
theories/AtomModel.v
theories/AtomProps.v
theories/BitsModel.v
theories/BitsProofs.v
theories/BitsProps.v
theories/CleanInv.v
theories/CleanModel.v
theories/CleanProofs.v
theories/CleanProps.v
theories/CollisionModel.v
theories/CollisionProps.v
theories/CompModel.v
theories/CompProps.v
theories/ConcModel.v
theories/ConcProofs.v
theories/ConcProps.v
theories/ConcSpec.v
theories/ConcSteps.v
theories/CoreModel.v
theories/CoreProps.v
theories/CrunModel.v
theories/CrunProps.v
theories/CtorModel.v
theories/CtorProps.v
theories/DpEng.v
theories/DpEng2.v
theories/DpEng3.v
theories/DpEng4.v
theories/DpInv.v
theories/DpModel.v
theories/DpProofs.v
theories/DpProps.v
theories/ErrModel.v
theories/ErrProofs.v
theories/ErrProofs2.v
theories/ErrProps.v
theories/FailoverModel.v
theories/FailoverProps.v
theories/FwdModel.v
theories/FwdProofs.v
theories/FwdProps.v
theories/GenModel.v
theories/GenProofs.v
theories/GenProps.v
theories/GeoModel.v
theories/GeoProofs.v
theories/GeoProps.v
theories/HandModel.v
theories/HandProps.v
theories/HashModel.v
theories/HashProofs.v
theories/HashProps.v
theories/LifeInv.v
theories/LifeModel.v
theories/LifeProps.v
theories/ListModel.v
theories/ListProps.v
theories/LruIterModel.v
theories/LruIterProps.v
theories/LruModel.v
theories/LruProofs.v
theories/LruProps.v
theories/MarkModel.v
theories/MarkProps.v
theories/MioModel.v
theories/MioProps.v
theories/ModeModel.v
theories/ModeProps.v
theories/NhitModel.v
theories/NhitProofs.v
theories/NhitProps.v
theories/OccModel.v
theories/OccProps.v
theories/ParallelModel.v
theories/ParallelProps.v
theories/PartModel.v
theories/PartProps.v
theories/PassiveModel.v
theories/PassiveProps.v
theories/PipelineModel.v
theories/PipelineProps.v
theories/PlModel.v
theories/PlProps.v
theories/PurgeModel.v
theories/PurgeProps.v
theories/QueueModel.v
theories/QueueProps.v
theories/RbDel.v
theories/RbIns.v
theories/RbKeys.v
theories/RbModel.v
theories/RbProps.v
theories/RbRing.v
theories/RbRot.v
theories/RbTree.v
theories/ReallocModel.v
theories/ReallocProps.v
theories/RefcntModel.v
theories/RefcntProps.v
theories/RegModel.v
theories/RegProps.v
theories/RepModel.v
theories/RepProps.v
theories/ReqModel.v
theories/ReqProps.v
theories/SaveModel.v
theories/SaveProps.v
theories/SbLoadModel.v
theories/SbLoadProps.v
theories/SbModel.v
theories/SbProps.v
theories/SegLifeModel.v
theories/SegLifeProps.v
theories/SeqModel.v
theories/SeqProofs.v
theories/SeqProps.v
theories/ShardModel.v
theories/ShardProps.v
theories/SizeModel.v
theories/SizeProofs.v
theories/SizeProps.v
theories/StatsModel.v
theories/StatsProps.v
theories/SubIoModel.v
theories/SubIoProps.v
theories/TuneModel.v
theories/TuneProps.v
theories/VobModel.v
theories/VobProps.v
theories/VolModel.v
theories/VolProofs.v
theories/VolProofs2.v
theories/VolProps.v
